(** * Proofs about memoised computations on Raz trees over whole histories. *)

From Verif Require Import Base BaseFacts Spec SpecRaz LevelTreeModel TreeSpec TreeProofs TreeCursorModel
  RazMetaModel RazModel CursorProofs RazView RazScripts RazProofs RazFocus RazReach
  MemoModel MemoSpec MemoProofs MemoCost MemoRaz MemoLR.

(** Equality of node data from equality of elements and metadata. *)
Definition td_eq_dec {E M} (eqE : forall x y : E, {x = y} + {x <> y}) (eqM : forall x y : M, {x = y} + {x <> y}) :
  forall x y : tree_data E M, {x = y} + {x <> y}.
Proof.
  intros [|a b|v] [|a' b'|v']; try (right; discriminate).
  - left. reflexivity.
  - destruct (eqM a a'), (eqM b b'); (left; congruence) || (right; congruence).
  - destruct (list_eq_dec eqE v v'); [left; congruence|right; congruence].
Defined.

Section Raz.
Context {E M : Type} {RM : RazMeta E M} (eqD : forall x y : tree_data E M, {x = y} + {x <> y}).
Notation rtree := (tree (tree_data E M)).
Notation atoms := (list (atom E level)).
Implicit Types (t : raz_tree E M).

(** ** Answers *)
Definition pure_up {R} (f : option R -> tree_data E M -> level -> option name -> option R -> res R) t : res (option R) :=
  match rt_tree t with
  | None => Ok None
  | Some tr => do x <- t_fold_up_meta f tr; Ok (Some x)
  end.
Lemma on_tree_sound {R} (f : option R -> tree_data E M -> level -> option name -> option R -> res R) t tab :
  sound (t_fold_up_meta f) tab ->
  answer (on_tree (m_fold_up_meta eqD f) t tab) = pure_up f t /\
  forall r tab' lg, on_tree (m_fold_up_meta eqD f) t tab = Ok (r, tab', lg) -> sound (t_fold_up_meta f) tab'.
Proof.
  intros S. unfold on_tree, pure_up. destruct (rt_tree t) as [tr|].
  - destruct (fold_up_sound eqD f tr tab S) as (Ha & Hs).
    destruct (m_fold_up_meta eqD f tr tab) as [[[x tab1] lg]|e|]; cbn [answer bind] in *; rewrite <- Ha; cbn [bind];
      (split; [reflexivity|]); intros; try discriminate. inv H. eauto.
  - split; [reflexivity|]. intros. now inv H.
Qed.
Lemma up_answers {R} (f : option R -> tree_data E M -> level -> option name -> option R -> res R) ts :
  answer (runs (on_tree (m_fold_up_meta eqD f)) ts no_memos) = all_ok (map (pure_up f) ts).
Proof.
  apply (runs_sound _ (t_fold_up_meta f) (pure_up f)); [|apply no_memos_sound].
  intros t tab S. now apply on_tree_sound.
Qed.
Lemma lr_answers {R} (eqR : forall x y : R, {x = y} + {x <> y})
    (f : R -> tree_data E M -> level -> option name -> R) init ts :
  answer (runs (m_rt_lr eqD eqR f init) ts no_memos) =
  all_ok (map (fun t => Ok match rt_tree t with
                           | None => init
                           | Some tr => t_fold_lr_meta f tr (Some (NStr "start")) init
                           end) ts).
Proof.
  apply (runs_sound _ (lr_pure f)); [|apply no_memos_sound].
  intros t tab S. unfold m_rt_lr. destruct (rt_tree t) as [tr|].
  - apply (fold_lr_sound eqD eqR f tr _ _ tab S).
  - split; [reflexivity|]. intros. now inv H.
Qed.
Lemma all_ok_Ok {X Y} (f : X -> Y) l : all_ok (map (fun x => Ok (f x)) l) = Ok (map f l).
Proof. induction l as [|x l IH]; simpl; [reflexivity|]. now rewrite IH. Qed.

Lemma map_answers {R N} {RN : RazMeta R N} (f : E -> R) ts :
  answer (runs (m_rt_map eqD (RN := RN) f) ts no_memos) = all_ok (map (rt_map f) ts).
Proof.
  set (h := fun (d : tree_data E M) lev n (l r : option (tree (tree_data R N))) =>
       match d with
       | Leaf v => Ok (Leaf (map f v))
       | _ => td_rebuild (peek_op l) Dummy lev n (peek_op r)
       end).
  set (up := fun l d lv nm r =>
    do d' <- h d lv nm l r; unwrap "map: Tree::new" (tree_new lv nm d' l r)).
  apply (runs_sound _ (t_fold_up_meta up) (rt_map f)); [|apply no_memos_sound].
  intros t tab S. destruct (on_tree_sound up t tab S) as (Ha & Hs). unfold m_rt_map.
  change (on_tree (m_map eqD _) t tab) with (on_tree (m_fold_up_meta eqD up) t tab).
  assert (X : rt_map f t = do tr <- pure_up up t; mk_raz_tree tr).
  { unfold rt_map, pure_up. destruct (rt_tree t) as [tr|]; [|reflexivity].
    change (t_map _ tr) with (t_map h tr). now rewrite t_map_fold. }
  rewrite X. destruct (on_tree (m_fold_up_meta eqD up) t tab) as [[[tr tab1] lg]|e|];
    cbn [answer bind] in *; rewrite <- Ha; cbn [bind]; [|split; [reflexivity|discriminate]..].
  destruct (mk_raz_tree tr) as [t'|e|]; cbn [answer bind]; (split; [reflexivity|]); intros; try discriminate.
  inv H. eauto.
Qed.

(** ** What runs again *)
Definition trees (hist : list (raz_tree E M)) : list rtree :=
  flat_map (fun t => match rt_tree t with None => [] | Some tr => [tr] end) hist.
Lemma trees_in u hist : In u (trees hist) -> exists t, In t hist /\ rt_tree t = Some u.
Proof.
  unfold trees. rewrite in_flat_map. intros (t & I & H). exists t. split; [exact I|].
  destruct (rt_tree t); [destruct H as [->|[]]; reflexivity|contradiction].
Qed.
Lemma orderly_trees hist : Forall (fun t => otree_ok (rt_tree t)) hist -> orderly_points (map contents hist) ->
  orderly (trees hist).
Proof.
  induction hist as [|t older IH]; [intros; exact I|]. intros F O. inv F. cbn [map orderly_points] in O.
  destruct O as (O & Na & Nd & Nn). specialize (IH H2 O). unfold trees. cbn [flat_map]. fold (trees older).
  unfold contents in Na, Nd. destruct (rt_tree t) as [tr|] eqn:Et; [|exact IH]. cbn [app]. simpl in H1.
  cbn [orderly]. split; [exact IH|]. split; [now apply tree_inner_named|]. split; [now apply tree_names_nodup|].
  intros n Hn. apply (tree_names tr H1) in Hn.
  assert (Hn' : has_point n (contents t)) by (unfold contents; rewrite Et; exact Hn).
  specialize (Nn n Hn'). clear Hn' Et.
  destruct older as [|p older]; [exact I|]. cbn [map] in Nn.
  assert (New : (forall u, In u (contents p :: map contents older) -> ~ has_point n u) ->
    forall u, In u (trees (p :: older)) -> ~ In n (names u)).
  { intros Q u Iu Hu. destruct (trees_in _ _ Iu) as (q & Iq & Eq).
    assert (Oq : tree_ok u). { rewrite Forall_forall in H2. specialize (H2 q Iq). rewrite Eq in H2. exact H2. }
    apply (tree_names u Oq) in Hu. apply (Q (contents q)).
    - change (In (contents q) (map contents (p :: older))). now apply in_map.
    - unfold contents. rewrite Eq. exact Hu. }
  unfold trees. cbn [flat_map]. fold (trees older). inv H2.
  destruct (rt_tree p) as [tp|] eqn:Ep; cbn [app].
  - destruct Nn as [Nn|Nn].
    + left. apply (tree_names tp); [exact H3|]. unfold contents in Nn. rewrite Ep in Nn. exact Nn.
    + right. intros u Iu. apply New; [exact Nn|]. unfold trees. cbn [flat_map]. rewrite Ep. exact Iu.
  - destruct Nn as [Nn|Nn]; [unfold contents in Nn; rewrite Ep in Nn; contradiction Nn|].
    destruct (trees older) as [|q older'] eqn:Et; [exact I|]. right. intros u Iu. apply New; [exact Nn|].
    unfold trees. cbn [flat_map]. rewrite Ep. cbn [app]. fold (trees older). rewrite Et. exact Iu.
Qed.

Lemma trees_app a b : trees (a ++ b) = trees a ++ trees b.
Proof. unfold trees. apply flat_map_app. Qed.
Lemma trees_rev hist : trees (rev hist) = rev (trees hist).
Proof.
  induction hist as [|t hist IH]; [reflexivity|]. cbn [rev]. rewrite trees_app, IH. unfold trees at 2 3. cbn [flat_map].
  destruct (rt_tree t); cbn [app rev]; [reflexivity|]. now rewrite app_nil_r.
Qed.
(** Runs over Raz trees, over the trees in them. *)
Lemma runs_trees {K R L} (run : rtree -> mtab K R -> res (R * mtab K R * list L)) hist : forall T rs T' lgs,
  runs (on_tree run) hist T = Ok (rs, T', lgs) -> exists rs' lgs', runs run (trees hist) T = Ok (rs', T', lgs').
Proof.
  induction hist as [|t hist IH]; cbn [runs]; intros T rs T' lgs H.
  - inv H. eexists _, _. reflexivity.
  - apply bind_Ok in H. destruct H as ([[y T1] lg] & F & H).
    apply bind_Ok in H. destruct H as ([[ys T2] lgs2] & H & Z). inv Z.
    destruct (IH _ _ _ _ H) as (rs' & lgs' & H').
    unfold trees. cbn [flat_map]. fold (trees hist). unfold on_tree in F. destruct (rt_tree t) as [tr|]; cbn [app].
    + apply bind_Ok in F. destruct F as ([[x T3] lg3] & F & Z). inv Z. cbn [runs]. rewrite F. cbn [bind]. rewrite H'.
      cbn [bind]. eexists _, _. reflexivity.
    + inv F. eauto.
Qed.

Lemma lr_runs_trees {R} (eqR : forall x y : R, {x = y} + {x <> y})
    (f : R -> tree_data E M -> level -> option name -> R) init hist : forall T rs T' lgs,
  runs (m_rt_lr eqD eqR f init) hist T = Ok (rs, T', lgs) ->
  exists rs' lgs', runs (fun u => m_fold_lr_meta eqD eqR f u (Some (NStr "start")) init) (trees hist) T = Ok (rs', T', lgs').
Proof.
  induction hist as [|u hist IH]; cbn [runs]; intros T rs T' lgs H.
  - inv H. eexists _, _. reflexivity.
  - apply bind_Ok in H. destruct H as ([[y T1] lg1] & F & H).
    apply bind_Ok in H. destruct H as ([[ys T2] lgs2] & H & Z). inv Z.
    destruct (IH _ _ _ _ H) as (rs' & lgs' & H').
    unfold trees. cbn [flat_map]. fold (trees hist). unfold m_rt_lr in F. destruct (rt_tree u) as [tr|]; cbn [app].
    + cbn [runs]. rewrite F. cbn [bind]. rewrite H'. cbn [bind]. eexists _, _. reflexivity.
    + inv F. eauto.
Qed.

Lemma inners_marks (t : rtree) : tree_ok t -> length (inners t) = length (marks (tree_atoms (Some t))).
Proof.
  induction t as [lv nm d l r Hl Hr] using tree_induction. intros O.
  destruct (tree_ok_case _ O) as [(v & X & Hv)|(lv' & nm' & ml & mr & tl & tr & X & Lv & _ & _ & Kl & Kr)]; inv X.
  - change (Node 0%N None (Leaf v) None None) with (leaf_of (M := M) v). now rewrite tree_atoms_leaf, marks_elts.
  - rewrite tree_atoms_branch, marks_app. cbn [inners marks]. rewrite !app_length. simpl in *. rewrite Hl, Hr; auto.
Qed.
Lemma filter_length {X} (p : X -> bool) l : length (filter p l) <= length l.
Proof. induction l as [|x l IH]; simpl; [lia|]. destruct (p x); simpl; lia. Qed.
Lemma annot_inners {A R} (f : R -> A -> level -> option name -> R) (t : tree A) : forall s a,
  length (inners (annot f t s a)) = length (inners t).
Proof.
  induction t as [lv nm d l r Hl Hr] using tree_induction. intros s a. cbn [annot].
  destruct l as [tl|], r as [tr|]; simpl in *; auto. rewrite !app_length. simpl. rewrite Hl, Hr. reflexivity.
Qed.
Lemma app3_nil {X} (a b c : list X) : a ++ b ++ c = [] -> a = [] /\ b = [] /\ c = [].
Proof. intros H. apply app_eq_nil in H. destruct H as [-> H]. apply app_eq_nil in H. tauto. Qed.

Section Cost.
Context (t t' : raz_tree E M) (older : list (raz_tree E M)) (pre mid mid' post : atoms).
Hypothesis reached : Forall (fun t => tree_reached false t) (t' :: t :: older).
Hypothesis disciplined : orderly_points (map contents (t' :: t :: older)).
Hypothesis before : contents t = pre ++ mid ++ post.
Hypothesis after : contents t' = pre ++ mid' ++ post.

Lemma reached_ok : Forall (fun t => otree_ok (rt_tree t)) (t' :: t :: older).
Proof.
  eapply Forall_impl; [|exact reached]. intros u H. destruct (tree_reached_canonical u H) as [[O _] _]. exact O.
Qed.
Lemma reached_conv u : In u (t' :: t :: older) -> oconventional (rt_tree u).
Proof.
  intros I. rewrite Forall_forall in reached. destruct (tree_reached_canonical u (reached u I)) as [_ C]. exact C.
Qed.

Theorem up_cost {R} (f : option R -> tree_data E M -> level -> option name -> option R -> res R) rs T lgs x T' lg :
  runs (on_tree (m_fold_up_meta eqD f)) (rev (t :: older)) no_memos = Ok (rs, T, lgs) ->
  on_tree (m_fold_up_meta eqD f) t' T = Ok (x, T', lg) ->
  length lg <= 1 + 2 * (seen_from_right pre + length (marks mid') + seen_from_left 0%N post).
Proof.
  intros H F. pose proof reached_ok as Rok. pose proof (orderly_trees _ Rok disciplined) as Od.
  apply runs_trees in H. destruct H as (rs' & lgs' & H). rewrite trees_rev in H.
  unfold on_tree in F. unfold contents in before, after.
  unfold trees in Od, H. cbn [flat_map] in Od, H. fold (trees older) in Od, H.
  pose proof (reached_conv t' (or_introl eq_refl)) as C'. pose proof (reached_conv t (or_intror (or_introl eq_refl))) as C.
  inv Rok. rename H2 into O'. inv H3. rename H2 into O.
  destruct (rt_tree t') as [tr'|]; [|inv F; simpl; lia].
  apply bind_Ok in F. destruct F as ([[y T1] lg1] & F & Z). inv Z. cbn [app] in Od.
  pose proof (orderly_head _ _ Od) as (In' & Nd' & _).
  destruct (rt_tree t) as [tr|].
  - cbn [app] in *. pose proof (history_cost eqD f tr tr' _ _ _ _ _ _ _ Od H F) as Q.
    pose proof (changed_bound eqD tr tr' pre mid mid' post O C O' C' In' before after) as Q'. lia.
  - cbn [app] in *. symmetry in before. apply app3_nil in before. destruct before as (-> & -> & ->).
    cbn [app] in after. rewrite app_nil_r in after.
    assert (Z : forall o, changed eqD o tr' <= length (marks mid')).
    { intros o. rewrite inners_changed by exact In'. rewrite <- after, <- (inners_marks tr' O'). apply filter_length. }
    destruct (trees older) as [|p older'].
    + assert (S0 : state_ok [] T) by (cbn [rev runs] in H; inv H; apply no_memos_state).
      pose proof (fold_cost eqD f (Node 0%N None (t_peek tr') None None) (NoDup_nil _) tr' In' Nd' T y T' lg) as Q.
      destruct Q as (_ & Q & _); [|exact F|].
      * intros m Im. right. split; [intros []|].
        assert (Zn : forall n, T n = None).
        { intros n. destruct (T n) as [e|] eqn:Et; [|reflexivity].
          destruct (proj1 S0 n e Et) as (u & _ & [] & _). }
        split; apply Zn.
      * specialize (Z (Node 0%N None (t_peek tr') None None)). unfold changed in Z. unfold news, is_new in Q. lia.
    + pose proof (history_cost eqD f p tr' _ _ _ _ _ _ _ Od H F) as Q. specialize (Z p). lia.
Qed.

Theorem lr_cost_within {R} (eqR : forall x y : R, {x = y} + {x <> y}) (f : R -> tree_data E M -> level -> option name -> R)
    init k rs T lgs x T' lg :
  (forall tr tr', rt_tree t = Some tr -> rt_tree t' = Some tr' -> inner_named tr' ->
    changed (eqN eqD eqR) (annot f tr (Some (NStr "start")) init) (annot f tr' (Some (NStr "start")) init) <= seen_from_right pre + length (marks mid') + k) ->
  runs (m_rt_lr eqD eqR f init) (rev (t :: older)) no_memos = Ok (rs, T, lgs) ->
  m_rt_lr eqD eqR f init t' T = Ok (x, T', lg) ->
  length lg <= 1 + 2 * (seen_from_right pre + length (marks mid') + k).
Proof.
  intros Hg H F. pose proof reached_ok as Rok. pose proof (orderly_trees _ Rok disciplined) as Od.
  set (s0 := Some (NStr "start")) in *. rename Hg into Bd.
  apply lr_runs_trees in H. fold s0 in H.
  destruct H as (rs' & lgs' & H). rewrite trees_rev in H.
  unfold m_rt_lr in F. unfold contents in before, after.
  unfold trees in Od, H. cbn [flat_map] in Od, H. fold (trees older) in Od, H.
  pose proof (reached_conv t' (or_introl eq_refl)) as C'. pose proof (reached_conv t (or_intror (or_introl eq_refl))) as C.
  inv Rok. rename H2 into O'. inv H3. rename H2 into O.
  destruct (rt_tree t') as [tr'|] eqn:Et'; [|inv F; simpl; lia].
  cbn [app] in Od. pose proof (orderly_head _ _ Od) as (In' & Nd' & _).
  destruct (rt_tree t) as [tr|] eqn:Et.
  - cbn [app] in *. pose proof (lr_history_cost eqD eqR f s0 init tr tr' _ _ _ _ _ _ _ Od H F) as Q.
    pose proof (Bd tr tr' eq_refl eq_refl In') as Q'. lia.
  - cbn [app] in *. symmetry in before. apply app3_nil in before. destruct before as (-> & -> & ->).
    cbn [app] in after. rewrite app_nil_r in after.
    assert (Z : forall o, changed (eqN eqD eqR) o (annot f tr' s0 init) <= length (marks mid')).
    { intros o. rewrite inners_changed by now apply annot_inner.
      rewrite <- after, <- (inners_marks tr' O'), <- (annot_inners f tr' s0 init). apply filter_length. }
    destruct (trees older) as [|p older'].
    + cbn [rev runs] in H. inv H.
      assert (S0 : sound (lr_pure f) no_memos) by (intros n j r Q; discriminate).
      assert (R0 : rel f no_memos no_memos) by (intros n; reflexivity).
      destruct (lr_sim eqD eqR f _ _ _ _ _ _ _ _ S0 R0 F) as (T2' & lg' & F' & _ & L). rewrite L.
      set (a' := annot f tr' s0 init) in *.
      pose proof (fold_cost (eqN eqD eqR) (up f) (Node 0%N None (t_peek a') None None) (NoDup_nil _) a'
        (annot_inner f tr' s0 init In')) as Q.
      assert (Nd2 : NoDup (names a')) by (unfold a'; rewrite annot_names; exact Nd').
      destruct (Q Nd2 no_memos x T2' lg') as (_ & Q1 & _); [|exact F'|].
      * intros m Im. right. split; [intros []|]. split; reflexivity.
      * specialize (Z (Node 0%N None (t_peek a') None None)). unfold changed in Z. unfold news, is_new in Q1. lia.
    + pose proof (lr_history_cost eqD eqR f s0 init p tr' _ _ _ _ _ _ _ Od H F) as Q.
      specialize (Z (annot f p s0 init)). lia.
Qed.
Theorem lr_cost {R} (eqR : forall x y : R, {x = y} + {x <> y}) (f : R -> tree_data E M -> level -> option name -> R)
    (g : R -> level -> option name -> R) init rs T lgs x T' lg :
  (forall a p q lv nm, f a (Branch p q) lv nm = g a lv nm) ->
  runs (m_rt_lr eqD eqR f init) (rev (t :: older)) no_memos = Ok (rs, T, lgs) ->
  m_rt_lr eqD eqR f init t' T = Ok (x, T', lg) ->
  length lg <= 1 + 2 * (seen_from_right pre + length (marks mid') + length (marks post)).
Proof.
  intros Hg. apply lr_cost_within. intros tr tr' Et Et' In'. pose proof reached_ok as Rok.
  pose proof (reached_conv t' (or_introl eq_refl)) as C'. pose proof (reached_conv t (or_intror (or_introl eq_refl))) as C.
  inversion Rok as [|? ? O' Rok']. inversion Rok' as [|? ? O _]. unfold contents in before, after. rewrite Et, Et' in *.
  exact (lr_changed_bound eqD eqR f g Hg _ init tr tr' pre mid mid' post O C O' C' In' before after).
Qed.
End Cost.

(** Nothing but the root runs again on an unchanged sequence. *)
Lemma changed_self {A} (eqA : forall x y : A, {x = y} + {x <> y}) (u : tree A) : changed eqA u u = 0.
Proof.
  unfold changed. apply length_zero_iff_nil.
  assert (X : forall l, (forall s, In s l -> In s (subtrees u)) ->
    filter (fun s => has_children s && negb (existsb (tree_same eqA s) (subtrees u))) l = []).
  { induction l as [|s l IH]; intros H; [reflexivity|]. cbn [filter].
    assert (existsb (tree_same eqA s) (subtrees u) = true) as ->.
    { apply existsb_exists. exists s. split; [apply H; now left|]. now apply tree_same_eq. }
    rewrite andb_false_r. apply IH. intros z I. apply H. now right. }
  apply X. auto.
Qed.
Section Again.
Context (t t' : raz_tree E M) (older : list (raz_tree E M)).
Hypothesis reached : Forall (fun t => tree_reached false t) (t' :: t :: older).
Hypothesis disciplined : orderly_points (map contents (t' :: t :: older)).
Hypothesis same : contents t' = contents t.

Lemma same_tree : t' = t.
Proof.
  inv reached. inv H2. apply canonical_unique; auto using tree_reached_canonical.
Qed.
Theorem up_again {R} (f : option R -> tree_data E M -> level -> option name -> option R -> res R) rs T lgs x T' lg :
  runs (on_tree (m_fold_up_meta eqD f)) (rev (t :: older)) no_memos = Ok (rs, T, lgs) ->
  on_tree (m_fold_up_meta eqD f) t' T = Ok (x, T', lg) -> length lg <= 1.
Proof.
  intros H F. pose proof (orderly_trees _ (reached_ok t t' older reached) disciplined) as Od.
  apply runs_trees in H. destruct H as (rs' & lgs' & H). rewrite trees_rev in H.
  pose proof same_tree as X. subst t'. unfold on_tree in F. unfold trees in Od, H. cbn [flat_map] in Od, H.
  destruct (rt_tree t) as [tr|]; [|inv F; simpl; lia]. cbn [app] in *.
  apply bind_Ok in F. destruct F as ([[y T1] lg1] & F & Z). inv Z.
  pose proof (history_cost eqD f tr tr _ _ _ _ _ _ _ Od H F) as Q. rewrite changed_self in Q. exact Q.
Qed.
Theorem lr_again {R} (eqR : forall x y : R, {x = y} + {x <> y}) (f : R -> tree_data E M -> level -> option name -> R)
    init rs T lgs x T' lg :
  runs (m_rt_lr eqD eqR f init) (rev (t :: older)) no_memos = Ok (rs, T, lgs) ->
  m_rt_lr eqD eqR f init t' T = Ok (x, T', lg) -> length lg <= 1.
Proof.
  intros H F. pose proof (orderly_trees _ (reached_ok t t' older reached) disciplined) as Od.
  apply lr_runs_trees in H. destruct H as (rs' & lgs' & H). rewrite trees_rev in H.
  pose proof same_tree as X. subst t'. unfold m_rt_lr in F. unfold trees in Od, H. cbn [flat_map] in Od, H.
  destruct (rt_tree t) as [tr|]; [|inv F; simpl; lia]. cbn [app] in *.
  pose proof (lr_history_cost eqD eqR f _ init tr tr _ _ _ _ _ _ _ Od H F) as Q. rewrite changed_self in Q. exact Q.
Qed.
End Again.

(** [map] is a fold. *)
Lemma map_runs {R N} {RN : RazMeta R N} (f : E -> R) : exists up, 
  (forall t T x T' lg, m_rt_map eqD (RN := RN) f t T = Ok (x, T', lg) ->
    exists y, on_tree (m_fold_up_meta eqD up) t T = Ok (y, T', lg)) /\
  (forall ts T rs T' lgs, runs (m_rt_map eqD (RN := RN) f) ts T = Ok (rs, T', lgs) ->
    exists rs', runs (on_tree (m_fold_up_meta eqD up)) ts T = Ok (rs', T', lgs)).
Proof.
  eexists. match goal with |- ?A /\ _ => assert (X : A) end.
  { intros t T x T' lg H. unfold m_rt_map in H. apply bind_Ok in H. destruct H as ([[tr T1] lg1] & F & H).
    apply bind_Ok in H. destruct H as (t1 & _ & Z). inv Z. eexists. exact F. }
  split; [exact X|]. induction ts as [|t ts IH]; cbn [runs]; intros T rs T' lgs H.
  - inv H. eexists. reflexivity.
  - apply bind_Ok in H. destruct H as ([[y T1] lg] & F & H).
    apply bind_Ok in H. destruct H as ([[ys T2] lgs2] & H & Z). inv Z.
    destruct (X _ _ _ _ _ F) as (y' & ->). destruct (IH _ _ _ _ H) as (ys' & H'). cbn [bind]. rewrite H'. cbn [bind].
    eexists. reflexivity.
Qed.

(** Without names everything runs again. *)
Lemma unnamed_reruns {A R} (eqA : forall x y : A, {x = y} + {x <> y})
    (f : option R -> A -> level -> option name -> option R -> res R) (u : tree A) :
  names u = [] -> forall T x T' lg, m_fold_up_meta eqA f u T = Ok (x, T', lg) -> T' = T /\ length lg = length (subtrees u).
Proof.
  induction u as [lv nm d l r Hl Hr] using tree_induction. intros N T x T' lg H.
  rewrite names_eq in N. destruct nm; [discriminate|]. cbn [app] in N. apply app_eq_nil in N. destruct N as [Nl Nr].
  cbn [m_fold_up_meta memo_opt fork_left fork_right option_map] in H.
  apply bind_Ok in H. destruct H as ([[rl T1] lg1] & H1 & H).
  apply bind_Ok in H. destruct H as ([[rr T2] lg2] & H2 & H).
  apply bind_Ok in H. destruct H as (y & _ & Z). inv Z.
  assert (X : T1 = T /\ length lg1 = length (osubtrees l)).
  { destruct l as [tl|]; [|inv H1; auto]. apply bind_Ok in H1. destruct H1 as ([[a b] c] & H1 & Z). inv Z. simpl in *. eauto. }
  destruct X as [-> L1].
  assert (X : T' = T /\ length lg2 = length (osubtrees r)).
  { destruct r as [tr|]; [|inv H2; auto]. apply bind_Ok in H2. destruct H2 as ([[a b] c] & H2 & Z). inv Z. simpl in *. eauto. }
  destruct X as [-> L2]. split; [reflexivity|]. rewrite subtrees_eq. cbn [length]. rewrite !app_length. lia.
Qed.
End Raz.
