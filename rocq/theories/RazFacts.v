(** * Raz proofs, part 8: the facts behind the property theorems. *)

From Verif Require Import Base BaseFacts Spec SpecRaz StackModel AStackModel StackScripts StackProofs
  LevelTreeModel TreeCursorModel RazMetaModel RazModel TreeSpec TreeProofs CursorProofs RazView
  RazProofs RazUnfocus RazFocus RazIndex RazOps RazFrom RazScripts RazReach RazSession.

Section Facts.
Context {E M : Type} {RM : RazMeta E M}.
Notation atoms := (list (atom E level)).
Notation raz := (raz E M).
Notation raz_tree := (raz_tree E M).

Lemma sim_session (z : raz) s : sim z s -> session z s.
Proof.
  intros S ops F. destruct (zrun_sim ops z s F S) as (z' & R & S' & _).
  destruct (unfocus_sim _ _ S') as (t & U & _ & C & _). eauto.
Qed.

Lemma session_behaves (z : raz) s : session z s -> behaves z (elts (s_left s)) (elts (s_right s)).
Proof.
  intros S ops F. destruct (S ops F) as (z' & t & R & _). exists (fst (sz_run s ops)), z'.
  split; [exact R|]. exact (proj1 (sz_run_zip ops s)).
Qed.

Lemma zip_pops (l r : list E) : fst (zip_run (l, r) (repeat OPopL (S (length l)))) = map Some (map Some l ++ [None]).
Proof.
  induction l as [|e l IH]; [reflexivity|].
  replace (repeat OPopL (S (length (e :: l)))) with (@OPopL E :: repeat OPopL (S (length l))) by reflexivity.
  cbn [zip_run zip_step hd_error tl]. destruct (zip_run (l, r) (repeat OPopL (S (length l)))) as [xs z].
  simpl in IH |- *. now rewrite IH.
Qed.
Lemma zip_pops_right (l r : list E) : fst (zip_run (l, r) (repeat OPopR (S (length r)))) = map Some (map Some r ++ [None]).
Proof.
  induction r as [|e r IH]; [reflexivity|].
  replace (repeat OPopR (S (length (e :: r)))) with (@OPopR E :: repeat OPopR (S (length r))) by reflexivity.
  cbn [zip_run zip_step hd_error tl]. destruct (zip_run (l, r) (repeat OPopR (S (length r)))) as [xs z].
  simpl in IH |- *. now rewrite IH.
Qed.
Lemma pops_ok n (o : zop E) : zop_ok o -> Forall zop_ok (repeat o n).
Proof. intros H. induction n; simpl; auto. Qed.

Lemma repeat_le {A} (x : A) n m : n <= m -> repeat x m = repeat x n ++ repeat x (m - n).
Proof. intros H. rewrite <- repeat_app. f_equal. lia. Qed.

Lemma zip_run_app (a b : list (zop E)) z : 
  fst (zip_run z (a ++ b)) = fst (zip_run z a) ++ fst (zip_run (snd (zip_run z a)) b).
Proof.
  revert z. induction a as [|o a IH]; intros z; [reflexivity|].
  cbn [zip_run app]. destruct (zip_step z o) as [x z1]. specialize (IH z1).
  destruct (zip_run z1 (a ++ b)) as [u v], (zip_run z1 a) as [xs z2]. simpl in *. now rewrite IH.
Qed.

Lemma pops_determine (l l' : list E) x y :
  map Some (map Some l ++ [None]) ++ x = map Some (map (@Some E) l' ++ [None]) ++ y -> l = l'.
Proof.
  revert l'. induction l as [|e l IH]; intros [|e' l'] H; simpl in H; auto; try discriminate.
  injection H as -> H. f_equal. auto.
Qed.

Lemma behaves_unique (z : raz) l r l' r' : behaves z l r -> behaves z l' r' -> l = l' /\ r = r'.
Proof.
  intros A B. split.
  - set (n := S (length l)). set (m := S (length l')).
    destruct (A (repeat OPopL (max n m)) (pops_ok _ OPopL I)) as (o1 & z1 & R1 & E1).
    destruct (B (repeat OPopL (max n m)) (pops_ok _ OPopL I)) as (o2 & z2 & R2 & E2).
    rewrite R1 in R2. injection R2 as <- <-. rewrite E1 in E2.
    rewrite (repeat_le _ n (max n m)) in E2 at 1 by lia. rewrite (repeat_le _ m (max n m)) in E2 by lia.
    rewrite !zip_run_app in E2. unfold n, m in E2. rewrite !zip_pops in E2. eapply pops_determine. exact E2.
  - set (n := S (length r)). set (m := S (length r')).
    destruct (A (repeat OPopR (max n m)) (pops_ok _ OPopR I)) as (o1 & z1 & R1 & E1).
    destruct (B (repeat OPopR (max n m)) (pops_ok _ OPopR I)) as (o2 & z2 & R2 & E2).
    rewrite R1 in R2. injection R2 as <- <-. rewrite E1 in E2.
    rewrite (repeat_le _ n (max n m)) in E2 at 1 by lia. rewrite (repeat_le _ m (max n m)) in E2 by lia.
    rewrite !zip_run_app in E2. unfold n, m in E2. rewrite !zip_pops_right in E2. eapply pops_determine. exact E2.
Qed.

Lemma reached_sim free (z : raz) : raz_reached free z -> exists s, sim z s.
Proof. intros H. destruct (proj2 (reached_ok free) _ _ _ _ H) as (s & S & _). eauto. Qed.

Lemma reached_behaves free (z : raz) : raz_reached free z -> exists l r, behaves z l r.
Proof.
  intros H. destruct (reached_sim _ _ H) as (s & S). do 2 eexists. apply session_behaves, sim_session, S.
Qed.

Lemma new_session : session (raz_new : raz) sz_new.
Proof. apply sim_session. apply sim_new. Qed.

Lemma fold_lr_list (t : raz_tree) : good t ->
  rt_fold_lr t [] (fun acc e => acc ++ [e]) = elts (contents t).
Proof.
  intros [G _]. rewrite fold_lr_elts by exact G.
  assert (X : forall l acc, fold_left (fun acc (e : E) => acc ++ [e]) l acc = acc ++ l).
  { induction l as [|e l IH]; intros acc; simpl; [now rewrite app_nil_r|]. rewrite IH, <- app_assoc. reflexivity. }
  apply X.
Qed.

Lemma reached_unfocus free (z : raz) l r : raz_reached free z -> behaves z l r ->
  exists t, unfocus z = Ok t /\ elts (contents t) = rev l ++ r /\
    rt_fold_lr t [] (fun acc e => acc ++ [e]) = rev l ++ r.
Proof.
  intros H B. destruct (reached_sim _ _ H) as (s & S).
  destruct (behaves_unique _ _ _ _ _ B (session_behaves _ _ (sim_session _ _ S))) as [-> ->].
  destruct (unfocus_sim _ _ S) as (t & U & G & C & _). exists t. split; [exact U|].
  rewrite fold_lr_list by exact G. rewrite C, sz_unfocus_elts. auto.
Qed.

(** ** Two archive points are never next to each other in a tree *)
Fixpoint separated (l : atoms) : Prop :=
  match l with
  | Mark _ _ :: (Mark _ _ :: _) => False
  | _ :: r => separated r
  | [] => True
  end.
Lemma separated_app (a b : atoms) : separated (a ++ b) -> separated a /\ separated b.
Proof.
  induction a as [|x a IH]; simpl; auto. intros H.
  destruct x as [e|m n]; [exact (IH H)|].
  destruct a as [|[e|m' n'] a].
  - simpl in H. destruct b as [|[e|m' n'] b]; simpl; auto; tauto.
  - exact (IH H).
  - destruct H.
Qed.
Lemma separated_elts v (b : atoms) : separated b -> separated (map Elt v ++ b).
Proof. induction v; simpl; auto. Qed.
Lemma separated_glue (a b : atoms) e f m n : separated (a ++ [Elt e]) -> separated (Elt f :: b) ->
  separated ((a ++ [Elt e]) ++ Mark m n :: Elt f :: b).
Proof.
  intros A B. induction a as [|x a IH]; [exact B|].
  destruct x as [e'|m' n']; [exact (IH A)|].
  simpl in A |- *. destruct a as [|[e'|m2 n2] a]; simpl in *; auto.
Qed.

Lemma ends_nonmark (t : tree (tree_data E M)) : tree_ok t ->
  separated (tree_atoms (Some t)) /\ (exists e r, tree_atoms (Some t) = Elt e :: r) /\
  (exists e r, tree_atoms (Some t) = r ++ [Elt e]).
Proof.
  induction t as [lv nm d l r IHl IHr] using tree_induction. intros H.
  destruct (tree_ok_case _ H) as [(v & X & Hv)|(lv' & nm' & ml & mr & tl & tr & X & Hlv & _ & _ & Hl & Hr)].
  - rewrite X. rewrite tree_atoms_leaf. split; [|split].
    + rewrite <- (app_nil_r (map Elt v)). apply separated_elts. exact I.
    + destruct v as [|e v]; [congruence|]. simpl. eauto.
    + destruct (exists_last Hv) as (v' & e & ->). rewrite map_app. simpl. eauto.
  - injection X as -> -> -> -> ->. cbn [optP] in IHl, IHr.
    destruct (IHl Hl) as (Sl & (e1 & r1 & L1) & (e2 & r2 & L2)).
    destruct (IHr Hr) as (Sr & (e3 & r3 & R3) & (e4 & r4 & R4)).
    rewrite tree_atoms_branch. split; [|split].
    + rewrite L2, R3. apply separated_glue; congruence.
    + rewrite L1. simpl. eauto.
    + rewrite R4. exists e4, (tree_atoms (Some tl) ++ Mark lv' nm' :: r4). now rewrite <- app_assoc.
Qed.

Lemma good_ends (t : raz_tree) : good t ->
  separated (contents t) /\ (contents t = [] \/
   ((exists e r, contents t = Elt e :: r) /\ (exists e r, contents t = r ++ [Elt e]))).
Proof.
  intros [G _]. unfold contents. destruct (rt_tree t) as [tr|]; [|simpl; auto].
  destruct (ends_nonmark tr G) as (A & B & C). auto.
Qed.

Lemma unfocus_at (p q : atoms) : separated (p ++ q) ->
  (p ++ q = [] \/ ((exists e r, p ++ q = Elt e :: r) /\ (exists e r, p ++ q = r ++ [Elt e]))) ->
  sz_unfocus (sz_at p q) = p ++ q.
Proof.
  intros Sp Ends. unfold sz_unfocus, sz_at. cbn [s_left s_right s_lnew s_rnew].
  assert (P : p = [] \/ exists p' x, p = p' ++ [x]).
  { destruct p as [|y p]; [now left|right]. destruct (exists_last (l := y :: p)) as (p' & x & ->); [discriminate|eauto]. }
  destruct P as [->|(p' & x & ->)].
  - simpl. destruct q as [|[e|m n] q]; auto. exfalso.
    destruct Ends as [Y|[(e & r & Y) _]]; simpl in Y; discriminate.
  - rewrite rev_app_distr. cbn [rev app]. destruct x as [e|m n].
    + rewrite rev_involutive. destruct q; now rewrite <- ?app_assoc.
    + destruct q as [|[e|m' n'] q].
      * exfalso. rewrite app_nil_r in Ends. destruct Ends as [Y|[_ (e & r & Y)]].
        { destruct p'; discriminate. }
        apply app_inj_tail in Y. destruct Y. discriminate.
      * rewrite rev_involutive. reflexivity.
      * exfalso. rewrite <- app_assoc in Sp. apply separated_app in Sp. destruct Sp as [_ Sp]. exact Sp.
Qed.

Theorem focus_unfocus (t : raz_tree) i z : lawful RM -> canonical t -> rt_focus t i = Ok (Some z) ->
  unfocus z = Ok t.
Proof.
  intros Lw C F. pose proof C as [G _].
  destruct (focus_some t i z Lw G F) as (p & q & X & S & O).
  destruct (unfocus_sim _ _ S) as (t' & U & _ & K & C').
  destruct (good_ends t G) as [Sp En]. rewrite <- X in Sp, En.
  rewrite (unfocus_at p q Sp En) in K. rewrite X in K.
  rewrite U. f_equal. apply canonical_unique; auto.
Qed.
Theorem focus_left_unfocus (t : raz_tree) : canonical t ->
  exists z, rt_focus_left t = Ok z /\ unfocus z = Ok t.
Proof.
  intros C. pose proof C as [G _]. destruct (focus_left_sim t G) as (z & F & S & O).
  exists z. split; [exact F|]. destruct (unfocus_sim _ _ S) as (t' & U & _ & K & C').
  destruct (good_ends t G) as [Sp En]. rewrite (unfocus_at [] (contents t) Sp En) in K. simpl in K.
  rewrite U. f_equal. apply canonical_unique; auto.
Qed.

(** ** Peek and pop; counts *)
Lemma reached_peek free (z : raz) l r : raz_reached free z -> behaves z l r ->
  (exists z', pop_left z = Ok (hd_error l, z') /\ raz_reached free z' /\ behaves z' (tl l) r) /\
  (exists z', pop_right z = Ok (hd_error r, z') /\ raz_reached free z' /\ behaves z' l (tl r)) /\
  peek_left z = Ok (hd_error l) /\ peek_right z = Ok (hd_error r).
Proof.
  intros H B. destruct (reached_sim _ _ H) as (s & S).
  destruct (behaves_unique _ _ _ _ _ B (session_behaves _ _ (sim_session _ _ S))) as [-> ->].
  split; [|split; [|split]].
  - destruct (pop_left_sim z s S) as (z' & P & S' & _). exists z'.
    assert (X : fst (sz_pop_left s) = hd_error (elts (s_left s)) /\
      zip_of (snd (sz_pop_left s)) = (tl (elts (s_left s)), elts (s_right s))).
    { pose proof (sz_step_zip s OPopL) as [X Y]. cbn [sz_step zip_step zip_of] in X, Y.
      destruct (sz_pop_left s). cbn [fst snd zanswer] in *. injection X as ->. auto. }
    destruct X as [X Y]. rewrite <- X. split; [exact P|]. split.
    + refine (RR_step _ _ _ _ z OPopL (OutElt (fst (sz_pop_left s))) z' H I _). simpl. now rewrite P.
    + pose proof (session_behaves _ _ (sim_session _ _ S')) as K. unfold zip_of in Y.
      injection Y as Y1 Y2. rewrite Y1, Y2 in K. exact K.
  - destruct (pop_right_sim z s S) as (z' & P & S' & _). exists z'.
    assert (X : fst (sz_pop_right s) = hd_error (elts (s_right s)) /\
      zip_of (snd (sz_pop_right s)) = (elts (s_left s), tl (elts (s_right s)))).
    { pose proof (sz_step_zip s OPopR) as [X Y]. cbn [sz_step zip_step zip_of] in X, Y.
      destruct (sz_pop_right s). cbn [fst snd zanswer] in *. injection X as ->. auto. }
    destruct X as [X Y]. rewrite <- X. split; [exact P|]. split.
    + refine (RR_step _ _ _ _ z OPopR (OutElt (fst (sz_pop_right s))) z' H I _). simpl. now rewrite P.
    + pose proof (session_behaves _ _ (sim_session _ _ S')) as K. unfold zip_of in Y.
      injection Y as Y1 Y2. rewrite Y1, Y2 in K. exact K.
  - rewrite (peek_left_sim z s S). pose proof (sz_step_zip s OPeekL) as [X _].
    cbn [sz_step zip_step zip_of zanswer fst] in X. now injection X as ->.
  - rewrite (peek_right_sim z s S). pose proof (sz_step_zip s OPeekR) as [X _].
    cbn [sz_step zip_step zip_of zanswer fst] in X. now injection X as ->.
Qed.

(** Scripts against the full zipper, from the three start states. *)
Lemma focus_session free (t : raz_tree) i z : tree_reached free t -> lawful RM -> rt_focus t i = Ok (Some z) ->
  exists p q, p ++ q = contents t /\ session z (sz_at p q).
Proof.
  intros H Lw F. destruct (focus_some t i z Lw (tree_reached_good _ H) F) as (p & q & X & S & _).
  exists p, q. split; [exact X|]. now apply sim_session.
Qed.
Lemma focus_left_session free (t : raz_tree) : tree_reached free t ->
  exists z, rt_focus_left t = Ok z /\ session z (sz_at [] (contents t)).
Proof.
  intros H. destruct (focus_left_sim t (tree_reached_good _ H)) as (z & F & S & _).
  exists z. split; [exact F|]. now apply sim_session.
Qed.
Lemma reached_session free (z : raz) : raz_reached free z -> exists s, session z s.
Proof. intros H. destruct (reached_sim _ _ H) as (s & S). exists s. now apply sim_session. Qed.

Lemma focus_behaves free (t : raz_tree) i z : tree_reached free t -> lawful RM -> rt_focus t i = Ok (Some z) ->
  exists p q, p ++ q = elts (contents t) /\ behaves z (rev p) q.
Proof.
  intros H Lw F. destruct (focus_session _ _ _ _ H Lw F) as (p & q & X & S).
  exists (elts p), (elts q). rewrite <- elts_app, X. split; auto.
  pose proof (session_behaves _ _ S) as B. unfold sz_at in B. simpl in B. now rewrite elts_rev in B.
Qed.
Lemma session_at_behaves (z : raz) p q : session z (sz_at p q) -> behaves z (rev (elts p)) (elts q).
Proof.
  intros S. pose proof (session_behaves _ _ S) as B. unfold sz_at in B. simpl in B. now rewrite elts_rev in B.
Qed.

(** [push] answers the length of the run it extends. *)
Lemma reached_push free (z : raz) s : raz_reached free z -> session z s -> forall e,
  fst (push_left z e) = S (length (run (s_left s))) /\
  fst (push_right z e) = S (length (run (s_right s))).
Proof.
  intros H S e. split.
  - destruct (S [OPushL e]) as (z' & t & R & _); [repeat constructor|].
    cbn [zrun zstep sz_run sz_step] in R. destruct (push_left z e) as [n z1]. simpl in R. injection R as -> _.
    reflexivity.
  - destruct (S [OPushR e]) as (z' & t & R & _); [repeat constructor|].
    cbn [zrun zstep sz_run sz_step] in R. destruct (push_right z e) as [n z1]. simpl in R. injection R as -> _.
    reflexivity.
Qed.

(** Dropping at most one archive point. *)
Lemma sz_unfocus_cases (s : sraz E) : let full := rev (s_left s) ++ s_right s in
  (is_mark (s_left s) = false \/ is_elt (s_right s) = true) /\
  (is_mark (s_right s) = false \/ is_elt (s_left s) = true) /\ sz_unfocus s = full \/
  exists a m n b, full = a ++ Mark m n :: b /\ sz_unfocus s = a ++ b /\
    (is_mark (s_left s) = true \/ is_mark (s_right s) = true) /\
    is_elt (s_left s) = false /\ is_elt (s_right s) = false /\
    ((a = rev (s_left s) /\ Mark m n :: b = s_right s) \/
     (a ++ [Mark m n] = rev (s_left s) /\ b = s_right s)).
Proof.
  cbv zeta. unfold sz_unfocus.
  destruct (s_left s) as [|[e|m n] l], (s_right s) as [|[e'|m' n'] r];
    cbn [is_mark is_elt]; try (left; repeat split; auto; rewrite ?app_nil_r; auto; fail).
  - right. exists [], m', n', r. simpl. repeat split; auto.
  - right. exists (rev l), m, n, []. simpl. rewrite !app_nil_r. repeat split; auto.
  - right. destruct ((s_lnew s =? 0) && (0 <? s_rnew s)).
    + exists (rev (Mark m n :: l)), m', n', r. repeat split; auto.
    + exists (rev l), m, n, (Mark m' n' :: r). simpl. rewrite <- app_assoc. repeat split; auto.
Qed.

End Facts.
