(** * Proofs about the stack models. *)

From Verif Require Import Base Spec StackModel AStackModel StackScripts.

(** ** Lists of atoms *)
Section AtomFacts.
Context {E M : Type}.
Implicit Types (l : list (atom E M)).

Lemma elts_app l1 l2 : elts (l1 ++ l2) = elts l1 ++ elts l2.
Proof.
  induction l1 as [|[e|m n] l1 IH]; simpl; [reflexivity|now rewrite IH|exact IH].
Qed.

Lemma marks_app l1 l2 : marks (l1 ++ l2) = marks l1 ++ marks l2.
Proof.
  induction l1 as [|[e|m n] l1 IH]; simpl; [reflexivity|exact IH|now rewrite IH].
Qed.

Lemma elts_map_Elt (v : list E) : elts (map (@Elt E M) v) = v.
Proof. induction v; simpl; congruence. Qed.

Lemma marks_map_Elt (v : list E) : marks (map (@Elt E M) v) = [].
Proof. induction v; simpl; congruence. Qed.

Lemma elts_rev l : elts (rev l) = rev (elts l).
Proof.
  induction l as [|[e|m n] l IH]; simpl; [reflexivity| |];
    rewrite elts_app, IH; simpl; [reflexivity|apply app_nil_r].
Qed.

Lemma marks_rev l : marks (rev l) = rev (marks l).
Proof.
  induction l as [|[e|m n] l IH]; simpl; [reflexivity| |];
    rewrite marks_app, IH; simpl; [apply app_nil_r|reflexivity].
Qed.

Lemma elts_drop_marks l : elts (drop_marks l) = elts l.
Proof. induction l as [|[e|m n] l IH]; simpl; auto. Qed.

Lemma drop_marks_not_Mark l m n r : drop_marks l <> Mark m n :: r.
Proof. induction l as [|[e|m' n'] l IH]; simpl; congruence. Qed.

Lemma sp_pop_elts l : sp_pop l = (hd_error (elts l), snd (sp_pop l)) /\ elts (snd (sp_pop l)) = tl (elts l).
Proof.
  unfold sp_pop. rewrite <- (elts_drop_marks l).
  destruct (drop_marks l) as [|[e|m n] r] eqn:D; simpl; auto.
  exfalso. eapply drop_marks_not_Mark; eauto.
Qed.

Lemma run_app_Elt (v : list E) l : run (map Elt v ++ l) = v ++ run l.
Proof. induction v; simpl; congruence. Qed.

Lemma after_run_app_Elt (v : list E) l : after_run (map Elt v ++ l) = after_run l.
Proof. induction v; simpl; auto. Qed.

Lemma run_after_run l : l = map Elt (run l) ++ after_run l.
Proof. induction l as [|[e|m n] l IH]; simpl; congruence. Qed.

Lemma after_run_run_nil l : run (after_run l) = [].
Proof. induction l as [|[e|m n] l IH]; simpl; auto. Qed.

End AtomFacts.

(** ** Stack *)
Section Stack.
Context {T : Type}.

Fixpoint head_list (h : head T) : list (option name * T) :=
  match h with
  | Head nm e n => (nm, e) :: match n with None => [] | Some h' => head_list h' end
  end.
Definition stack_list (s : stack T) : list (option name * T) :=
  match s with None => [] | Some h => head_list h end.

Lemma push_onto_eq t nm (e : T) : push_onto t nm e = Head nm e t.
Proof. destruct nm; reflexivity. Qed.

Lemma stack_list_push s nm e : stack_list (stack_push s nm e) = (nm, e) :: stack_list s.
Proof. unfold stack_push. rewrite push_onto_eq. reflexivity. Qed.

Lemma stack_list_nil s : stack_list s = [] <-> s = None.
Proof. destruct s as [[nm e n]|]; simpl; split; congruence. Qed.

Lemma stack_step_list s o : stack_list (stack_step s o) = list_step (stack_list s) o.
Proof.
  destruct o as [nm e|]; simpl.
  - apply stack_list_push.
  - destruct s as [[nm e n]|]; reflexivity.
Qed.

Lemma stack_run_list_gen ops s l :
  stack_list s = l -> stack_list (fold_left stack_step ops s) = fold_left list_step ops l.
Proof.
  revert s l. induction ops as [|o ops IH]; intros s l H; simpl; auto.
  apply IH. rewrite stack_step_list, H. reflexivity.
Qed.

Lemma stack_run_list ops : stack_list (stack_run ops) = list_run ops.
Proof. apply stack_run_list_gen. reflexivity. Qed.

Lemma iter_take_list n (s : stack T) : n <= length (stack_list s) ->
  fst (iter_take n (stack_iter s)) = map (fun p => (fst p, Some (snd p))) (firstn n (stack_list s)).
Proof.
  revert s. induction n as [|n IH]; intros s H; simpl; auto.
  destruct s as [[nm e t]|]; [|simpl in H; lia].
  simpl in *. specialize (IH t). unfold stack_iter in IH.
  destruct (iter_take n t) as [l i] eqn:D. simpl in *.
  rewrite IH; [reflexivity|]. destruct t; simpl in *; lia.
Qed.

Lemma iter_take_all (s : stack T) : snd (iter_take (length (stack_list s)) (stack_iter s)) = None.
Proof.
  assert (G : forall n s, n = length (stack_list s) -> snd (iter_take n (stack_iter s)) = None).
  { clear s. induction n as [|n IH]; intros s H; simpl.
    - destruct s as [[nm e t]|]; simpl in *; [lia|reflexivity].
    - destruct s as [[nm e t]|]; simpl in *; [|lia].
      specialize (IH t). unfold stack_iter in IH.
      destruct (iter_take n t) as [l i] eqn:D. simpl in *. apply IH.
      destruct t; simpl in *; lia. }
  now apply G.
Qed.

Theorem stack_lifo (ops : list (sop T)) :
  let s := stack_run ops in
  let l := list_run ops in
  stack_is_empty s = (match l with [] => true | _ => false end) /\
  stack_peek s = option_map snd (hd_error l) /\
  stack_name s = match l with [] => None | (nm, _) :: _ => nm end /\
  (stack_pull s = None <-> l = []) /\
  iter_take (length l) (stack_iter s) = (map (fun p => (fst p, Some (snd p))) l, None) /\
  forall k, iter_take k (None : iter T) = (repeat (None, None) k, None).
Proof.
  intros s l.
  assert (H : stack_list s = l) by apply stack_run_list.
  repeat split.
  - rewrite <- H. destruct s as [[nm e n]|]; reflexivity.
  - rewrite <- H. destruct s as [[nm e n]|]; reflexivity.
  - rewrite <- H. destruct s as [[nm e n]|]; reflexivity.
  - intros P. rewrite <- H. destruct s as [[nm e n]|]; [discriminate|reflexivity].
  - intros P. rewrite P in H. apply stack_list_nil in H. now rewrite H.
  - rewrite <- H.
    rewrite (surjective_pairing (iter_take _ _)), iter_take_list, firstn_all, iter_take_all by lia.
    reflexivity.
  - induction k as [|k IH]; simpl; [reflexivity|]. rewrite IH. reflexivity.
Qed.

End Stack.

(** ** AStack *)
Section AStack.
Context {E M : Type}.
Notation group_ok := (@group_ok E M).
Notation atoms := (list (atom E M)).
Implicit Types (s : astack E M) (h : head (M * list E)).

Definition vatoms (v : list E) : atoms := rev (map Elt v).

Fixpoint habs h : atoms :=
  match h with
  | Head nm p n =>
      Mark (fst p) nm :: vatoms (snd p) ++ match n with None => [] | Some h' => habs h' end
  end.
Definition stabs (o : stack (M * list E)) : atoms :=
  match o with None => [] | Some h => habs h end.
Definition as_abs s : atoms := vatoms (current s) ++ stabs (archived s).

(** Archived vectors are never empty. *)
Fixpoint hne h : Prop :=
  match h with
  | Head _ p n => snd p <> [] /\ match n with None => True | Some h' => hne h' end
  end.
Definition stne (o : stack (M * list E)) : Prop :=
  match o with None => True | Some h => hne h end.
Definition as_inv s : Prop := stne (archived s).

Lemma vatoms_eq (v : list E) : vatoms v = map Elt (rev v).
Proof. unfold vatoms. now rewrite map_rev. Qed.

Lemma vatoms_app (v w : list E) : vatoms (v ++ w) = vatoms w ++ vatoms v.
Proof. unfold vatoms. now rewrite map_app, rev_app_distr. Qed.

Lemma vatoms_nil (v : list E) : vatoms v = [] <-> v = [].
Proof.
  rewrite vatoms_eq. split; intros H; [|now subst].
  apply map_eq_nil in H. rewrite <- (rev_involutive v), H. reflexivity.
Qed.

Lemma elts_vatoms (v : list E) : elts (vatoms v) = rev v.
Proof. rewrite vatoms_eq. apply elts_map_Elt. Qed.

Lemma run_vatoms (v : list E) (l : atoms) : run (vatoms v ++ l) = rev v ++ run l.
Proof. rewrite vatoms_eq. apply run_app_Elt. Qed.

Lemma after_run_vatoms (v : list E) (l : atoms) : after_run (vatoms v ++ l) = after_run l.
Proof. rewrite vatoms_eq. apply after_run_app_Elt. Qed.

Lemma run_stabs o : run (stabs o) = [].
Proof. destruct o as [[? [? ?] ?]|]; reflexivity. Qed.

Lemma after_run_stabs o : after_run (stabs o) = stabs o.
Proof. destruct o as [[? [? ?] ?]|]; reflexivity. Qed.

Lemma run_as_abs s : run (as_abs s) = rev (current s).
Proof. unfold as_abs. rewrite run_vatoms, run_stabs. apply app_nil_r. Qed.

Lemma after_run_as_abs s : after_run (as_abs s) = stabs (archived s).
Proof. unfold as_abs. rewrite after_run_vatoms. apply after_run_stabs. Qed.

Lemma list_rev_case {X} (v : list X) : v = [] \/ exists w x, v = w ++ [x].
Proof.
  destruct v as [|x v] using rev_ind; [left; reflexivity|].
  right. eauto.
Qed.

Lemma vec_pop_snoc (v : list E) e : vec_pop (v ++ [e]) = (Some e, v).
Proof. unfold vec_pop. rewrite rev_app_distr. simpl. now rewrite rev_involutive. Qed.

Lemma vec_last_snoc (v : list E) e : vec_last (v ++ [e]) = Some e.
Proof. unfold vec_last. rewrite rev_app_distr. reflexivity. Qed.

Lemma vatoms_snoc (v : list E) e : vatoms (v ++ [e]) = Elt e :: vatoms v.
Proof. now rewrite vatoms_app. Qed.

Lemma as_is_empty_abs s : as_is_empty s = sp_is_empty (as_abs s).
Proof.
  unfold as_is_empty, as_abs, sp_is_empty.
  destruct (list_rev_case (current s)) as [->|(w & x & ->)].
  - simpl. destruct (archived s) as [[? [? ?] ?]|]; reflexivity.
  - rewrite vatoms_snoc. simpl. destruct (w ++ [x]) eqn:D; [|reflexivity].
    now apply app_eq_nil in D.
Qed.

Lemma as_new_abs : as_abs as_new = [].
Proof. reflexivity. Qed.

Lemma as_new_inv : as_inv as_new.
Proof. exact I. Qed.

Lemma as_push_abs s e : as_abs (as_push s e) = Elt e :: as_abs s.
Proof. unfold as_abs. simpl. now rewrite vatoms_snoc. Qed.

Lemma as_extend_abs s v : as_abs (as_extend s v) = vatoms v ++ as_abs s.
Proof. unfold as_abs. simpl. now rewrite vatoms_app, app_assoc. Qed.

(** Pop, with the metadata variant alongside. *)
Lemma as_pop_meta_spec s : as_inv s ->
  exists s', as_pop_meta s = Ok (fst (sp_pop_meta (as_abs s)), s')
    /\ as_abs s' = snd (sp_pop_meta (as_abs s)) /\ as_inv s'.
Proof.
  intros I. unfold as_pop_meta.
  rewrite as_is_empty_abs.
  destruct (sp_is_empty (as_abs s)) eqn:Emp.
  { destruct (as_abs s) eqn:D; [|discriminate]. exists s. rewrite D. auto. }
  unfold as_retrieve, as_abs in *.
  destruct (list_rev_case (current s)) as [C|(w & x & C)]; rewrite C in *; simpl in *.
  - destruct (archived s) as [[nm [m v] n]|] eqn:A; [|discriminate].
    unfold as_inv in I. rewrite A in I. simpl in I. destruct I as [Hv Hn].
    simpl. destruct (list_rev_case v) as [->|(w & x & ->)]; [congruence|].
    rewrite vec_pop_snoc, vatoms_snoc. simpl.
    eexists; split; [reflexivity|]. split; [|exact Hn].
    unfold as_abs. reflexivity.
  - rewrite vatoms_snoc. simpl.
    destruct (w ++ [x]) eqn:D; [now apply app_eq_nil in D|].
    simpl. rewrite C, <- D, vec_pop_snoc. simpl.
    eexists; split; [reflexivity|]. split; [reflexivity|exact I].
Qed.

Lemma sp_pop_meta_pop s : as_inv s ->
  sp_pop (as_abs s) = (option_map fst (fst (sp_pop_meta (as_abs s))), snd (sp_pop_meta (as_abs s))).
Proof.
  intros I. unfold as_abs.
  destruct (list_rev_case (current s)) as [C|(w & x & C)]; rewrite C in *.
  - simpl. destruct (archived s) as [[nm [m v] n]|] eqn:A; [|reflexivity].
    unfold as_inv in I. rewrite A in I. simpl in I. destruct I as [Hv Hn].
    simpl. destruct (list_rev_case v) as [->|(w & x & ->)]; [congruence|].
    rewrite vatoms_snoc. reflexivity.
  - rewrite vatoms_snoc. reflexivity.
Qed.

Lemma as_pop_of_meta s :
  as_pop s = (do ' (x, s') <- as_pop_meta s; Ok (option_map fst x, s')).
Proof.
  unfold as_pop, as_pop_meta.
  destruct (as_is_empty s); [reflexivity|].
  destruct (as_retrieve s) as [[m s1]| |]; simpl; auto.
  destruct (vec_pop (current s1)) as [[e|] v]; reflexivity.
Qed.

Lemma as_pop_spec s : as_inv s ->
  exists s', as_pop s = Ok (fst (sp_pop (as_abs s)), s')
    /\ as_abs s' = snd (sp_pop (as_abs s)) /\ as_inv s'.
Proof.
  intros I. rewrite as_pop_of_meta, sp_pop_meta_pop by exact I.
  destruct (as_pop_meta_spec s I) as (s' & -> & A & I').
  exists s'. auto.
Qed.

Lemma as_peek_spec s : as_inv s -> as_peek s = Ok (sp_peek (as_abs s)).
Proof.
  intros I. unfold as_peek, sp_peek. rewrite as_is_empty_abs.
  destruct (sp_is_empty (as_abs s)) eqn:Emp.
  { destruct (as_abs s) eqn:D; [|discriminate]. reflexivity. }
  unfold as_abs in *.
  destruct (list_rev_case (current s)) as [C|(w & x & C)]; rewrite C in *; simpl in *.
  - destruct (archived s) as [[nm [m v] n]|] eqn:A; [|discriminate].
    unfold as_inv in I. rewrite A in I. simpl in I. destruct I as [Hv Hn].
    simpl. destruct (list_rev_case v) as [->|(w & x & ->)]; [congruence|].
    now rewrite vec_last_snoc, vatoms_snoc.
  - rewrite vec_last_snoc, vatoms_snoc. simpl.
    destruct (w ++ [x]) eqn:D; [now apply app_eq_nil in D|]. reflexivity.
Qed.

Lemma as_archive_spec s nm m :
  fst (as_archive s nm m) = fst (sp_archive (as_abs s) nm m) /\
  as_abs (snd (as_archive s nm m)) = snd (sp_archive (as_abs s) nm m) /\
  (as_inv s -> as_inv (snd (as_archive s nm m))).
Proof.
  unfold as_archive, as_archive_with_capacity, as_abs, as_inv.
  destruct (list_rev_case (current s)) as [C|(w & x & C)]; rewrite C; simpl.
  - rewrite C. simpl. destruct (archived s) as [[nm' [m' v] n]|]; simpl; auto.
  - rewrite vatoms_snoc. simpl.
    destruct (w ++ [x]) eqn:D; [now apply app_eq_nil in D|]. rewrite <- D.
    unfold stack_push. rewrite push_onto_eq. simpl. rewrite vatoms_snoc.
    repeat split; auto. intros X. now apply app_eq_nil in X.
Qed.

Lemma as_next_archive_spec s : as_inv s ->
  exists s', as_next_archive s = Ok (fst (sp_next_archive (as_abs s)), s')
    /\ as_abs s' = snd (sp_next_archive (as_abs s)) /\ as_inv s'.
Proof.
  intros I. unfold as_next_archive. rewrite as_is_empty_abs.
  destruct (sp_is_empty (as_abs s)) eqn:Emp.
  { destruct (as_abs s) eqn:D; [|discriminate]. exists s. rewrite D. auto. }
  assert (NE : as_abs s <> []) by (destruct (as_abs s); discriminate).
  assert (R : sp_next_archive (as_abs s) =
    match stabs (archived s) with
    | Mark m _ :: r => (Some (current s, Some m), r)
    | _ => (Some (current s, None), [])
    end).
  { unfold sp_next_archive. rewrite run_as_abs, after_run_as_abs, rev_involutive.
    destruct (as_abs s); [congruence|reflexivity]. }
  rewrite R. unfold as_inv in I.
  destruct (archived s) as [[nm [m v] n]|] eqn:A; simpl in *.
  - eexists; split; [reflexivity|]. split; [reflexivity|]. apply I.
  - eexists; split; [reflexivity|]. split; reflexivity.
Qed.

Lemma as_name_abs s : as_name s = sp_name (as_abs s).
Proof.
  unfold as_name, sp_name. rewrite after_run_as_abs.
  destruct (archived s) as [[nm [m v] n]|]; reflexivity.
Qed.

Lemma as_step_spec s o : as_inv s ->
  exists s', as_step s o = Ok (fst (sp_step (as_abs s) o), s')
    /\ as_abs s' = snd (sp_step (as_abs s) o) /\ as_inv s'.
Proof.
  intros I. destruct o as [e|v| | | |nm m| | | | |]; simpl.
  - eexists; split; [reflexivity|]. split; [apply as_push_abs|exact I].
  - eexists; split; [reflexivity|]. split; [apply as_extend_abs|exact I].
  - destruct (as_pop_spec s I) as (s' & -> & A & I').
    destruct (sp_pop (as_abs s)) as [x l]. simpl in *. eauto.
  - destruct (as_pop_meta_spec s I) as (s' & -> & A & I').
    destruct (sp_pop_meta (as_abs s)) as [x l]. simpl in *. eauto.
  - rewrite as_peek_spec by exact I. exists s. auto.
  - destruct (as_archive_spec s nm m) as (B & A & I').
    destruct (sp_archive (as_abs s) nm m) as [b l].
    destruct (as_archive s nm m) as [b' s']. simpl in *. subst. eauto.
  - destruct (as_next_archive_spec s I) as (s' & -> & A & I').
    destruct (sp_next_archive (as_abs s)) as [x l]. simpl in *. eauto.
  - exists s. rewrite as_name_abs. auto.
  - exists s. unfold as_active_len. rewrite run_as_abs, rev_length. auto.
  - exists s. unfold as_active_data. rewrite run_as_abs, rev_involutive. auto.
  - exists s. rewrite as_is_empty_abs. auto.
Qed.

Lemma as_run_spec ops s : as_inv s ->
  exists s', as_run s ops = Ok (fst (sp_run (as_abs s) ops), s')
    /\ as_abs s' = snd (sp_run (as_abs s) ops) /\ as_inv s'.
Proof.
  revert s. induction ops as [|o ops IH]; intros s I; simpl.
  - eauto.
  - destruct (as_step_spec s o I) as (s1 & -> & A1 & I1). simpl.
    destruct (IH s1 I1) as (s2 & -> & A2 & I2). simpl.
    destruct (sp_step (as_abs s) o) as [x l1]. simpl in *. rewrite A1 in *.
    destruct (sp_run l1 ops) as [xs l2]. simpl in *. eauto.
Qed.

(** C02/C03/C04/C20 in one statement: the script refinement. *)
Theorem as_refines (ops : list (aop E M)) :
  exists s', as_run as_new ops = Ok (fst (sp_run [] ops), s').
Proof.
  destruct (as_run_spec ops as_new as_new_inv) as (s' & H & _). eauto.
Qed.

(** *** The plain stack *)
(** Atom lists reachable as abstractions: no two adjacent marks, last is an element. *)
Fixpoint separated (l : atoms) : Prop :=
  match l with
  | [] => True
  | Elt _ :: r => separated r
  | Mark _ _ :: r => (exists e r', r = Elt e :: r') /\ separated r
  end.

Lemma separated_pop_meta l : separated l ->
  fst (sp_pop_meta l) = None <-> elts l = [].
Proof.
  destruct l as [|[e|m n] r]; simpl; [tauto|split; discriminate|].
  intros [(e & r' & ->) _]. simpl. split; discriminate.
Qed.

Lemma sp_step_plain l o : separated l -> o <> OpNextArchive ->
  answer (fst (sp_step l o)) = fst (plain_step (elts l) o) /\
  elts (snd (sp_step l o)) = snd (plain_step (elts l) o) /\
  separated (snd (sp_step l o)).
Proof.
  intros S H. destruct o as [e|v| | | |nm m| | | | |]; simpl; try congruence; auto.
  - rewrite elts_app. fold (vatoms v). rewrite elts_vatoms. repeat split; auto.
    rewrite vatoms_eq. induction (rev v); simpl; auto.
  - destruct (sp_pop_elts l) as [H1 H2].
    destruct (sp_pop l) as [x l'] eqn:D. simpl in *. inversion H1; subst.
    repeat split; auto.
    unfold sp_pop in D. clear - S D.
    assert (S' : separated (drop_marks l)).
    { clear D. induction l as [|[e|m n] l IH]; simpl in *; auto. apply IH, S. }
    destruct (drop_marks l) as [|[e|m n] r]; inversion D; subst; simpl in *; solve [auto | exact I | apply S'].
  - destruct l as [|[e|m n] r]; simpl in *; auto.
    destruct S as [(e & r' & ->) S]. simpl in *. auto.
  - unfold sp_peek. destruct (sp_pop_elts l) as [H1 H2]. rewrite H1. auto.
  - destruct l as [|[e|m' n] r]; simpl in *; eauto 6.
Qed.

Lemma sp_run_plain ops : Forall (fun o => o <> OpNextArchive) ops ->
  forall l, separated l ->
  map answer (fst (sp_run l ops)) = fst (plain_run (elts l) ops) /\
  elts (snd (sp_run l ops)) = snd (plain_run (elts l) ops).
Proof.
  induction 1 as [|o ops Ho _ IH]; intros l S; simpl; auto.
  destruct (sp_step_plain l o S Ho) as (H1 & H2 & H3).
  destruct (sp_step l o) as [x l1]. simpl in *.
  destruct (IH l1 H3) as (H4 & H5). rewrite H2 in *.
  destruct (plain_step (elts l) o) as [y l1']. simpl in *.
  destruct (sp_run l1 ops) as [xs l2]. destruct (plain_run l1' ops) as [ys l2'].
  simpl in *. subst. auto.
Qed.

Theorem as_plain (ops : list (aop E M)) :
  Forall (fun o => o <> OpNextArchive) ops ->
  exists obs s', as_run as_new ops = Ok (obs, s') /\
    map answer obs = fst (plain_run [] ops) /\
    as_is_empty s' = match snd (plain_run [] ops) with [] => true | _ => false end.
Proof.
  intros H. destruct (as_run_spec ops as_new as_new_inv) as (s' & R & A & I).
  do 2 eexists. split; [exact R|].
  destruct (sp_run_plain ops H [] Logic.I) as [H1 H2]. simpl in H1, H2.
  split; [exact H1|].
  rewrite as_is_empty_abs, A. rewrite as_new_abs, <- H2.
  assert (S : separated (snd (sp_run [] ops))).
  { assert (G : forall l, separated l -> separated (snd (sp_run l ops))).
    { clear - H. induction H as [|o ops Ho _ IH]; intros l S; simpl; auto.
      destruct (sp_step_plain l o S Ho) as (_ & _ & S1).
      destruct (sp_step l o) as [x l1]. simpl in *.
      specialize (IH l1 S1). destruct (sp_run l1 ops); simpl in *; auto. }
    apply G. exact Logic.I. }
  destruct (snd (sp_run [] ops)) as [|[e|m n] r]; simpl in *; auto.
  destruct S as [(e & r' & ->) _]. reflexivity.
Qed.

(** *** Draining *)
Lemma as_push_all_eq s v : as_push_all s v = as_extend s v.
Proof.
  unfold as_push_all. revert s. induction v as [|e v IH]; intros s; simpl.
  - unfold as_extend. rewrite app_nil_r. now destruct s.
  - rewrite IH. unfold as_extend, as_push. simpl. now rewrite <- app_assoc.
Qed.

Fixpoint groups_stack (gs : list (list E * option name * M)) : stack (M * list E) :=
  match gs with
  | [] => None
  | (v, nm, m) :: r => Some (Head nm (m, v) (groups_stack r))
  end.

Lemma as_push_groups_gen gs st : Forall group_ok gs ->
  fold_left as_push_group gs (AStack [] (groups_stack st)) = AStack [] (groups_stack (rev gs ++ st)).
Proof.
  intros H. revert st. induction H as [|[[v nm] m] gs Hg _ IH]; intros st; simpl; auto.
  rewrite <- app_assoc. simpl. rewrite <- IH. f_equal.
  rewrite as_push_all_eq. unfold as_extend, as_archive, as_archive_with_capacity. simpl.
  destruct v as [|e v]; [elim Hg; reflexivity|].
  simpl. unfold stack_push. now rewrite push_onto_eq.
Qed.

Lemma as_push_groups_eq gs : Forall group_ok gs ->
  as_push_groups gs = AStack [] (groups_stack (rev gs)).
Proof.
  intros H. unfold as_push_groups. pose proof (as_push_groups_gen gs [] H) as G.
  rewrite app_nil_r in G. exact G.
Qed.

Lemma as_drain_gen older active : Forall group_ok older -> (active <> [] \/ older <> []) ->
  as_drain (length older + 1) (AStack active (groups_stack older))
  = Ok (drain_spec active older, as_new).
Proof.
  revert active. induction older as [|[[v nm] m] older IH]; intros active H A; simpl.
  - destruct A as [A|A]; [|congruence].
    destruct active as [|e w]; [congruence|]. reflexivity.
  - inversion H as [|? ? Hg Ho]; subst. unfold as_next_archive, as_is_empty. simpl.
    rewrite andb_false_r. simpl. rewrite IH; auto.
Qed.

Theorem as_drain_all gs active : Forall group_ok gs -> (active <> [] \/ gs <> []) ->
  as_drain (length gs + 1) (as_push_all (as_push_groups gs) active)
  = Ok (drain_spec active (rev gs), as_new).
Proof.
  intros H A. rewrite as_push_groups_eq, as_push_all_eq by exact H.
  unfold as_extend. simpl. rewrite <- rev_length.
  apply as_drain_gen; [now apply Forall_rev|].
  destruct A as [A|A]; [auto|right]. intros R. apply A.
  rewrite <- (rev_involutive gs), R. reflexivity.
Qed.

(** *** Iteration *)
Lemma as_iter_take_spec n s : as_inv s ->
  exists s', as_iter_take n s =
    Ok (map Some (firstn n (elts (as_abs s))) ++ repeat None (n - length (elts (as_abs s))), s')
    /\ as_inv s'.
Proof.
  revert s. induction n as [|n IH]; intros s I; simpl.
  - eauto.
  - unfold as_iter_next.
    destruct (as_pop_spec s I) as (s1 & -> & A & I1). simpl.
    destruct (IH s1 I1) as (s2 & -> & I2). simpl.
    exists s2. split; auto. rewrite A.
    destruct (sp_pop_elts (as_abs s)) as [H1 H2]. rewrite H2.
    replace (fst (sp_pop (as_abs s))) with (hd_error (elts (as_abs s))) by (now rewrite H1).
    destruct (elts (as_abs s)) as [|e l]; simpl.
    + rewrite firstn_nil. simpl. now rewrite Nat.sub_0_r.
    + reflexivity.
Qed.

Lemma groups_stack_inv gs : Forall group_ok gs -> stne (groups_stack gs).
Proof.
  induction 1 as [|[[v nm] m] gs Hg _ IH]; simpl; auto.
Qed.

Lemma groups_stack_elts gs :
  elts (stabs (groups_stack gs)) = flat_map (fun g => rev (fst (fst g))) gs.
Proof.
  induction gs as [|[[v nm] m] gs IH]; simpl; auto.
  rewrite elts_app, elts_vatoms. f_equal. destruct (groups_stack gs); exact IH.
Qed.

Theorem as_iter_all gs active n : Forall group_ok gs ->
  let all := concat (map (fun g => fst (fst g)) gs) ++ active in
  exists s', as_iter_take n (as_push_all (as_push_groups gs) active)
    = Ok (map Some (firstn n (rev all)) ++ repeat None (n - length all), s').
Proof.
  intros H all. rewrite as_push_groups_eq, as_push_all_eq by exact H.
  destruct (as_iter_take_spec n (as_extend (AStack [] (groups_stack (rev gs))) active)) as (s' & R & _).
  { unfold as_inv. simpl. apply groups_stack_inv. now apply Forall_rev. }
  exists s'. rewrite R. clear R.
  assert (X : elts (as_abs (as_extend (AStack [] (groups_stack (rev gs))) active)) = rev all).
  { rewrite as_extend_abs, elts_app, elts_vatoms. unfold as_abs. simpl.
    rewrite groups_stack_elts. unfold all. rewrite rev_app_distr. f_equal.
    clear. induction gs as [|[[v nm] m] gs IH]; simpl; auto.
    rewrite flat_map_app, rev_app_distr, IH. simpl. now rewrite app_nil_r. }
  rewrite X, rev_length. reflexivity.
Qed.

Theorem as_iter_script (ops : list (aop E M)) n :
  let left := elts (snd (sp_run [] ops)) in
  exists obs s s', as_run as_new ops = Ok (obs, s) /\
    as_iter_take n s = Ok (map Some (firstn n left) ++ repeat None (n - length left), s').
Proof.
  intros left. destruct (as_run_spec ops as_new as_new_inv) as (s & R & A & I).
  destruct (as_iter_take_spec n s I) as (s' & R' & _).
  do 3 eexists. split; [exact R|]. rewrite R', A. reflexivity.
Qed.

(** *** Archiving *)
Theorem as_archive_effect s nm m :
  let '(b, s') := as_archive s nm m in
  (b = true <-> 0 < as_active_len s) /\
  (b = false -> s' = s) /\
  (b = true -> as_active_len s' = 0 /\ as_name s' = nm /\
     as_next_archive s' = Ok (Some ([], Some m), s)).
Proof.
  destruct s as [[|e v] a]; unfold as_archive, as_archive_with_capacity, as_active_len; simpl.
  - split; [split; [discriminate|lia]|]. split; [reflexivity|discriminate].
  - split; [split; [lia|reflexivity]|]. split; [discriminate|]. intros _.
    unfold as_name, as_next_archive, as_is_empty, stack_push. rewrite push_onto_eq. simpl. auto.
Qed.

Lemma as_extend_rev_push (s : astack E M) (a v : list E) : as_active_len s = 0 ->
  as_extend_rev (as_push_all s a) v = as_push_all s (rev v ++ rev a).
Proof.
  intros Z. rewrite !as_push_all_eq. unfold as_extend, as_extend_rev. cbn [current archived].
  unfold as_active_len in Z. destruct (current s); [|discriminate]. now rewrite rev_app_distr.
Qed.

End AStack.
