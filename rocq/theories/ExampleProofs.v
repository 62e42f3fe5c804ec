(** * Proofs about the tree computations of the examples. *)

From Verif Require Import Base BaseFacts Spec SpecRaz StackModel AStackModel StackScripts StackProofs
  LevelTreeModel TreeCursorModel RazMetaModel RazModel TreeSpec TreeProofs CursorProofs RazView
  RazProofs RazUnfocus RazFocus RazIndex RazOps RazFrom RazScripts RazReach RazSession RazFacts
  AccumModel AccumScripts AccumProofs SkiplistModel MapScripts SkiplistProofs ExampleModel ExampleSpec.

Section Trees.
Context {E M : Type} {RM : RazMeta E M}.
Notation atoms := (list (atom E level)).
Notation raz_tree := (raz_tree E M).
Notation rtree := (tree (tree_data E M)).
Notation branch_of lv nm ml mr tl tr := (Node lv nm (Branch ml mr) (Some tl) (Some tr)).

Lemma vec_tree_ok free (v : list E) : exists t : raz_tree, vec_tree v = Ok t /\ tree_reached free t /\ contents t = map Elt v.
Proof.
  unfold vec_tree. pose proof (from_vec_ok v (M := M)) as H. destruct v as [|e v].
  - rewrite H. cbn [bind]. destruct (empty_ok (E := E) (M := M)) as (t & Ht & _ & C). exists t.
    split; [exact Ht|]. split; [exact (TR_empty free E M RM t Ht)|exact C].
  - destruct H as (t & H & _ & C). rewrite H. exists t. split; [reflexivity|].
    split; [exact (TR_from_vec free E M RM _ t H)|exact C].
Qed.

Lemma is_empty_true free (t : raz_tree) : tree_reached free t -> rt_is_empty t = true -> contents t = [].
Proof. intros H He. destruct (is_empty_ok t (tree_reached_good t H)) as [X _]. rewrite X in He. now destruct (contents t). Qed.
Lemma is_empty_false free (t : raz_tree) : tree_reached free t -> rt_is_empty t = false -> contents t <> [].
Proof. intros H He. destruct (is_empty_ok t (tree_reached_good t H)) as [X _]. rewrite X in He. now destruct (contents t). Qed.

Lemma empty_reached free : exists t : raz_tree, rt_empty = Ok t /\ tree_reached free t /\ contents t = [].
Proof.
  destruct (empty_ok (E := E) (M := M)) as (t & Ht & _ & C). exists t.
  split; [exact Ht|]. split; [exact (TR_empty free E M RM t Ht)|exact C].
Qed.

Lemma join_reached free (a b : raz_tree) lev nm :
  tree_reached free a -> tree_reached free b -> (1 <= lev)%N -> contents a <> [] -> contents b <> [] ->
  (free = false -> lev_lt (rt_tree a) lev /\ lev_le (rt_tree b) lev) ->
  exists t, (do o <- rt_join a lev nm b; unwrap "unwrap on None" o) = Ok t /\ tree_reached free t /\
    contents t = contents a ++ Mark lev nm :: contents b.
Proof.
  intros Ha Hb Hl Na Nb Hf.
  destruct (join_ok a b lev nm (tree_reached_good a Ha) (tree_reached_good b Hb) Hl Na Nb) as (t & J & _ & C & _).
  exists t. rewrite J. split; [reflexivity|]. split; [|exact C].
  exact (TR_join free E M RM a lev nm b t Ha Hb Hl Hf J).
Qed.

(** ** reverse *)
Theorem reverse_ok free (t : raz_tree) : tree_reached free t -> contents t <> [] ->
  exists t', reverse_tree t = Ok (Some t') /\ tree_reached true t' /\ contents t' = rev (contents t).
Proof.
  intros H Ne. unfold reverse_tree.
  destruct (fold_up_gauged_ok (fun v => vec_tree (rev v)) reverse_bin
    (fun l x => l <> [] /\ tree_reached true x /\ contents x = rev l) t) as (x & F & _ & R & C); auto.
  - intros v Hv. destruct (vec_tree_ok true (rev v)) as (x & Hx & R & C). exists x. split; [exact Hx|].
    split; [now destruct v|]. split; [exact R|]. rewrite C. apply map_rev.
  - intros lv nm a b x y Hl (Na & Rx & Cx) (Nb & Ry & Cy). unfold reverse_bin.
    destruct (is_empty_ok x (tree_reached_good x Rx)) as [X _]. destruct (is_empty_ok y (tree_reached_good y Ry)) as [Y _].
    assert (Nx : contents x <> []). { rewrite Cx. intros Z. apply Na. rewrite <- (rev_involutive a), Z. reflexivity. }
    assert (Ny : contents y <> []). { rewrite Cy. intros Z. apply Nb. rewrite <- (rev_involutive b), Z. reflexivity. }
    rewrite X, Y. destruct (contents x) eqn:Ex; [congruence|]. destruct (contents y) eqn:Ey; [congruence|].
    destruct (join_reached true y x lv nm Ry Rx Hl) as (t' & J & R & C); try congruence.
    exists t'. split; [exact J|]. split; [now destruct a|]. split; [exact R|].
    rewrite C, Ex, Ey, Cx, Cy, rev_app_distr. simpl. now rewrite <- app_assoc.
  - exact (proj1 (tree_reached_good t H)).
  - exists x. auto.
Qed.

Lemma reverse_empty free (t : raz_tree) : tree_reached free t -> contents t = [] -> reverse_tree t = Ok None.
Proof.
  intros H C. apply fold_up_gauged_empty. destruct (is_empty_ok t (tree_reached_good t H)) as [X _].
  rewrite C in X. unfold rt_is_empty in X. now destruct (rt_tree t).
Qed.

(** ** filter *)
Lemma fin_marks (p : E -> bool) (a b : atoms) : keep_atoms p (a ++ b) = keep_atoms p a ++ keep_atoms p b.
Proof. induction a as [|[e|m n] a IH]; simpl; auto; [destruct (p e)|]; simpl; now rewrite IH. Qed.
Lemma keep_elts (p : E -> bool) (l : atoms) : elts (keep_atoms p l) = filter p (elts l).
Proof. induction l as [|[e|m n] l IH]; simpl; auto. destruct (p e); simpl; now rewrite IH. Qed.
Lemma squash_elts (l : atoms) st best : elts (squash st best l) = elts l.
Proof.
  revert st best. induction l as [|[e|m n] l IH]; intros st best; simpl; auto.
  - destruct best as [[m n]|]; simpl; now rewrite IH.
  - destruct st; apply IH.
Qed.
Lemma filtered_elts (p : E -> bool) (l : atoms) : elts (filtered p l) = filter p (elts l).
Proof. unfold filtered. now rewrite squash_elts, keep_elts. Qed.
Lemma squash_nil (l : atoms) st best : squash st best l = [] <-> elts l = [].
Proof.
  revert st best. induction l as [|[e|m n] l IH]; intros st best; simpl; [tauto| |].
  - destruct best as [[m n]|]; split; discriminate.
  - destruct st; apply IH.
Qed.

Fixpoint fin (st : bool) (best : option (level * option name)) (l : atoms) : bool * option (level * option name) :=
  match l with
  | [] => (st, best)
  | Elt e :: r => fin true None r
  | Mark m n :: r => if st then fin true (higher best m n) r else fin false None r
  end.
Lemma squash_app (a b : atoms) st best :
  squash st best (a ++ b) = squash st best a ++ squash (fst (fin st best a)) (snd (fin st best a)) b.
Proof.
  revert st best. induction a as [|[e|m n] a IH]; intros st best; simpl; auto.
  - destruct best as [[m n]|]; simpl; now rewrite IH.
  - destruct st; apply IH.
Qed.
Definition low (lv : level) (best : option (level * option name)) : Prop :=
  match best with None => True | Some (m, _) => (m < lv)%N end.
Lemma fin_low lv (a : atoms) st best : levels_in (fun m => m < lv)%N a -> low lv best ->
  low lv (snd (fin st best a)).
Proof.
  revert st best. induction a as [|[e|m n] a IH]; intros st best F L; simpl; auto.
  - apply IH; [exact F|exact I].
  - unfold levels_in in F. simpl in F. apply Forall_cons_iff in F as [F1 F2]. simpl in F1. destruct st; [|apply IH; [exact F2|exact I]].
    apply IH; [exact F2|]. destruct best as [[m0 n0]|]; simpl in *; auto. destruct (m0 <? m)%N; simpl; auto.
Qed.
Lemma fin_started (a : atoms) best : fst (fin true best a) = true.
Proof. revert best. induction a as [|[e|m n] a IH]; intros best; simpl; auto. Qed.
Lemma fin_false (a : atoms) : fin false None a = if match elts a with [] => true | _ => false end then (false, None)
  else (true, snd (fin false None a)).
Proof.
  induction a as [|[e|m n] a IH]; simpl; auto.
  pose proof (fin_started a None). destruct (fin true None a). simpl in *. now subst.
Qed.
Lemma squash_high lv nm (b : atoms) : levels_in (fun m => m <= lv)%N b ->
  squash true (Some (lv, nm)) b = match elts b with [] => [] | _ => Mark lv nm :: squash false None b end.
Proof.
  induction b as [|[e|m n] b IH]; intros F; simpl; auto.
  unfold levels_in in F. simpl in F. apply Forall_cons_iff in F as [F1 F2]. simpl in F1.
  destruct (N.ltb_spec lv m); [lia|]. apply IH, F2.
Qed.
Lemma keep_levels P (p : E -> bool) (a : atoms) : levels_in P a -> levels_in P (keep_atoms p a).
Proof.
  unfold levels_in. induction a as [|[e|m n] a IH]; simpl; auto; intros F.
  - destruct (p e); auto.
  - apply Forall_cons_iff in F as [F1 F2]. constructor; auto.
Qed.
Lemma squash_levels P (a : atoms) st best : levels_in P a ->
  match best with None => True | Some (m, _) => P m end -> levels_in P (squash st best a).
Proof.
  unfold levels_in. revert st best. induction a as [|[e|m n] a IH]; intros st best F B; simpl; auto.
  - destruct best as [[m n]|]; simpl; [constructor; auto|]; apply IH; auto.
  - simpl in F. apply Forall_cons_iff in F as [F1 F2]. destruct st; [|apply IH; auto].
    apply IH; auto. destruct best as [[m0 n0]|]; simpl; auto. destruct (m0 <? m)%N; auto.
Qed.
Lemma filtered_levels P p (a : atoms) : levels_in P a -> levels_in P (filtered p a).
Proof. intros H. apply squash_levels; auto. now apply keep_levels. Qed.

Lemma filtered_branch p (a b : atoms) lv nm :
  levels_in (fun m => m < lv)%N a -> levels_in (fun m => m <= lv)%N b ->
  filtered p (a ++ Mark lv nm :: b) =
  match filtered p a, filtered p b with
  | [], y => y
  | x, [] => x
  | x, y => x ++ Mark lv nm :: y
  end.
Proof.
  intros Fa Fb. unfold filtered. rewrite fin_marks. cbn [keep_atoms].
  apply (keep_levels _ p) in Fa. apply (keep_levels _ p) in Fb. set (a' := keep_atoms p a) in *. set (b' := keep_atoms p b) in *.
  clearbody a' b'. rewrite squash_app, fin_false. cbn [squash].
  pose proof (squash_nil a' false None) as Na. pose proof (squash_nil b' false None) as Nb.
  pose proof (fin_low lv a' false None Fa I) as Lo. revert Lo. generalize (snd (fin false None a')). intros o Lo.
  destruct (elts a') as [|e1 l1] eqn:Ea.
  - rewrite (proj2 Na eq_refl). reflexivity.
  - cbn [fst snd]. assert (Hi : higher o lv nm = Some (lv, nm)).
    { destruct o as [[m0 n0]|]; [|reflexivity]. simpl in Lo |- *. destruct (N.ltb_spec m0 lv); [reflexivity|lia]. }
    rewrite Hi, squash_high by exact Fb. destruct (squash false None a') as [|x sa] eqn:Sa.
    { destruct Na as [Na _]. discriminate (Na eq_refl). }
    destruct (elts b') as [|e2 l2] eqn:Eb.
    + rewrite (proj2 Nb eq_refl), app_nil_r. reflexivity.
    + destruct (squash false None b') as [|y sb] eqn:Sb; [destruct Nb as [Nb _]; discriminate (Nb eq_refl)|]. reflexivity.
Qed.

(** The fold over a tree obeying the level convention knows the levels around. *)
Lemma levels_atoms P (t : rtree) : tree_ok t -> Forall (fun n => P (nlev n)) (inorder t) ->
  levels_in P (tree_atoms (Some t)).
Proof.
  induction t as [lv nm d l r Hl Hr] using tree_induction. intros O.
  destruct (tree_ok_case _ O) as [(v & X & Hv)|(lv' & nm' & ml & mr & tl & tr & X & Lv & Ml & Mr & Kl & Kr)]; inv X.
  - change (Node 0%N None (Leaf v) None None) with (@leaf_of E M v). rewrite tree_atoms_leaf. intros _. apply levels_in_Elt.
  - rewrite inorder_Node, tree_atoms_branch. cbn [oinorder]. intros F. apply Forall_app in F as [F1 F2].
    apply Forall_cons_iff in F2 as [F2 F3]. apply levels_in_app. split; [now apply Hl|].
    unfold levels_in. simpl. constructor; [exact F2|]. now apply Hr.
Qed.

Lemma fold_up_gauged_conv {R} (init : list E -> res R) (bin : R -> level -> option name -> R -> res R)
    (P : atoms -> R -> Prop) (t : raz_tree) :
  (forall v, v <> [] -> exists x, init v = Ok x /\ P (map Elt v) x) ->
  (forall lv nm a b x y, (1 <= lv)%N -> levels_in (fun m => m < lv)%N a -> levels_in (fun m => m <= lv)%N b ->
     P a x -> P b y -> exists z, bin x lv nm y = Ok z /\ P (a ++ Mark lv nm :: b) z) ->
  canonical t -> contents t <> [] ->
  exists x, rt_fold_up_gauged t init bin = Ok (Some x) /\ P (contents t) x.
Proof.
  intros HL HB [[O _] C] Ne. unfold rt_fold_up_gauged, contents in *.
  destruct (rt_tree t) as [tr|]; [|now elim Ne]. clear Ne. cbn [otree_ok otwf oconventional] in O, C.
  match goal with |- context [t_fold_up_meta ?f tr] => set (g := f) end.
  assert (X : exists x, t_fold_up_meta g tr = Ok x /\ P (tree_atoms (Some tr)) x).
  { clear t. induction tr as [lv nm d l r Hl Hr] using tree_induction.
    destruct (tree_ok_case _ O) as [(v & X & Hv)|(lv' & nm' & ml & mr & tl & tr & X & Lv & Ml & Mr & Kl & Kr)]; inv X.
    - change (Node 0%N None (Leaf v) None None) with (@leaf_of E M v). rewrite tree_atoms_leaf. apply HL, Hv.
    - destruct C as (Cl & Cr & Cl' & Cr'). destruct (Hl Kl Cl') as (x & Fx & Px). destruct (Hr Kr Cr') as (y & Fy & Py).
      rewrite tree_atoms_branch. cbn [t_fold_up_meta]. rewrite Fx. cbn [bind]. rewrite Fy. cbn [bind].
      apply HB; auto.
      + apply levels_atoms; [exact Kl|]. exact (conventional_left_bounds (Some tl) lv' Cl' Cl).
      + apply levels_atoms; [exact Kr|]. exact (conventional_right_bounds (Some tr) lv' Cr' Cr). }
  destruct X as (x & -> & Px). exists x. auto.
Qed.

Lemma low_tree (t : raz_tree) lv : good t -> (1 <= lv)%N -> levels_in (fun m => m < lv)%N (contents t) -> lev_lt (rt_tree t) lv.
Proof.
  intros [O _] Hl. unfold contents. destruct (rt_tree t) as [tr|]; [|reflexivity]. cbn [otree_ok otwf] in O.
  destruct (tree_ok_case _ O) as [(v & -> & Hv)|(lv' & nm' & ml & mr & tl & tr' & -> & Lv & Ml & Mr & Kl & Kr)].
  - intros _. simpl. lia.
  - rewrite tree_atoms_branch. intros F. apply levels_in_app in F as [_ F]. unfold levels_in in F. simpl in F.
    apply Forall_cons_iff in F as [F _]. exact F.
Qed.
Lemma low_tree_le (t : raz_tree) lv : good t -> levels_in (fun m => m <= lv)%N (contents t) -> lev_le (rt_tree t) lv.
Proof.
  intros [O _]. unfold contents. destruct (rt_tree t) as [tr|]; [|reflexivity]. cbn [otree_ok otwf] in O.
  destruct (tree_ok_case _ O) as [(v & -> & Hv)|(lv' & nm' & ml & mr & tl & tr' & -> & Lv & Ml & Mr & Kl & Kr)].
  - intros _. simpl. lia.
  - rewrite tree_atoms_branch. intros F. apply levels_in_app in F as [_ F]. unfold levels_in in F. simpl in F.
    apply Forall_cons_iff in F as [F _]. exact F.
Qed.

Lemma filter_bin_ok free (x y : raz_tree) lv nm : tree_reached free x -> tree_reached free y -> (1 <= lv)%N ->
  (free = false -> lev_lt (rt_tree x) lv /\ lev_le (rt_tree y) lv) ->
  exists z, filter_bin x lv nm y = Ok z /\ tree_reached free z /\
    contents z = match contents x, contents y with
                 | [], l => l
                 | l, [] => l
                 | l, m => l ++ Mark lv nm :: m
                 end.
Proof.
  intros Rx Ry Hl Hf. unfold filter_bin.
  destruct (is_empty_ok x (tree_reached_good x Rx)) as [X _]. destruct (is_empty_ok y (tree_reached_good y Ry)) as [Y _].
  rewrite X, Y. destruct (contents x) eqn:Ex, (contents y) eqn:Ey.
  - apply empty_reached.
  - exists y. auto.
  - exists x. auto.
  - rewrite <- Ex, <- Ey. apply join_reached; auto; congruence.
Qed.

Theorem filter_elts_ok free (p : E -> bool) (t : raz_tree) : tree_reached free t -> contents t <> [] ->
  exists t', filter_tree p t = Ok (Some t') /\ tree_reached true t' /\ elts (contents t') = filter p (elts (contents t)).
Proof.
  intros H Ne. unfold filter_tree.
  destruct (fold_up_gauged_ok (fun v => vec_tree (filter p v)) filter_bin
    (fun l x => tree_reached true x /\ elts (contents x) = filter p (elts l)) t) as (x & F & R & C); auto.
  - intros v Hv. destruct (vec_tree_ok true (filter p v)) as (x & Hx & R & C). exists x. split; [exact Hx|].
    split; [exact R|]. rewrite C, !elts_map_Elt. reflexivity.
  - intros lv nm a b x y Hl (Rx & Cx) (Ry & Cy).
    destruct (filter_bin_ok true x y lv nm Rx Ry Hl) as (z & Hz & Rz & Cz); [discriminate|].
    exists z. split; [exact Hz|]. split; [exact Rz|]. rewrite Cz, elts_app, filter_app. cbn [elts].
    change (elts (Mark lv nm :: b)) with (elts b). rewrite <- Cx, <- Cy.
    destruct (contents x), (contents y); try (now rewrite app_nil_r); try reflexivity.
    rewrite elts_app. reflexivity.
  - exact (proj1 (tree_reached_good t H)).
  - eauto.
Qed.

Theorem filter_ok (p : E -> bool) (t : raz_tree) : tree_reached false t -> contents t <> [] ->
  exists t', filter_tree p t = Ok (Some t') /\ tree_reached false t' /\ contents t' = filtered p (contents t).
Proof.
  intros H Ne. unfold filter_tree.
  destruct (fold_up_gauged_conv (fun v => vec_tree (filter p v)) filter_bin
    (fun l x => tree_reached false x /\ contents x = filtered p l) t) as (x & F & R & C); auto.
  - intros v Hv. destruct (vec_tree_ok false (filter p v)) as (x & Hx & R & C). exists x. split; [exact Hx|].
    split; [exact R|]. rewrite C. unfold filtered. clear. generalize false at 1.
    induction v as [|e v IH]; intros b; simpl; auto. destruct (p e); simpl; auto. f_equal. apply IH.
  - intros lv nm a b x y Hl Fa Fb (Rx & Cx) (Ry & Cy).
    destruct (filter_bin_ok false x y lv nm Rx Ry Hl) as (z & Hz & Rz & Cz).
    { intros _. split.
      - apply low_tree; [exact (tree_reached_good x Rx)|exact Hl|]. rewrite Cx. now apply filtered_levels.
      - apply low_tree_le; [exact (tree_reached_good y Ry)|]. rewrite Cy. now apply filtered_levels. }
    exists z. split; [exact Hz|]. split; [exact Rz|]. rewrite Cz, Cx, Cy. symmetry. now apply filtered_branch.
  - exact (tree_reached_canonical t H).
  - eauto.
Qed.

Lemma filter_empty free p (t : raz_tree) : tree_reached free t -> contents t = [] -> filter_tree p t = Ok None.
Proof.
  intros H C. apply fold_up_gauged_empty. destruct (is_empty_ok t (tree_reached_good t H)) as [X _].
  rewrite C in X. unfold rt_is_empty in X. now destruct (rt_tree t).
Qed.

(** ** max *)
Section Max.
Context (leb : E -> E -> bool) (tp : total_preorder leb).

Lemma leb_refl x : leb x x = true.
Proof. destruct (proj2 tp x x); auto. Qed.
Lemma cmp_max_assoc a b c : cmp_max leb (cmp_max leb a b) c = cmp_max leb a (cmp_max leb b c).
Proof.
  destruct tp as [Tr To]. unfold cmp_max.
  destruct (leb a b) eqn:AB, (leb b c) eqn:BC; try rewrite AB; auto.
  - now rewrite (Tr _ _ _ AB BC).
  - destruct (leb a c) eqn:AC; auto. exfalso. 
    destruct (To a b) as [X|X]; [congruence|]. rewrite (Tr b a c X AC) in BC. discriminate.
Qed.
Lemma iter_max_reduce (v : list E) : iter_max leb v = reduce (cmp_max leb) v.
Proof. reflexivity. Qed.
Lemma iter_max_last (v : list E) x : iter_max leb v = Some x -> last_greatest leb v x.
Proof.
  revert x. induction v as [|e v IH] using rev_ind; [discriminate|]. intros x H.
  destruct v as [|e0 v].
  - simpl in H. injection H as <-. exists [], []. repeat split; constructor.
  - unfold iter_max in H, IH. cbn [app] in H. rewrite fold_left_app in H. cbn [fold_left] in H.
    destruct (IH _ eq_refl) as (pre & post & Eq & F1 & F2). set (m := fold_left (cmp_max leb) v e0) in *.
    unfold cmp_max in H. destruct (leb m e) eqn:L; injection H as <-.
    + exists (e0 :: v), []. split; [reflexivity|]. split; [|constructor]. rewrite Eq. apply Forall_app.
      destruct tp as [Tr To]. split; [|constructor; [exact L|]].
      * eapply Forall_impl; [|exact F1]. simpl. intros y Hy. exact (Tr _ _ _ Hy L).
      * eapply Forall_impl; [|exact F2]. simpl. intros y Hy. destruct (To m y) as [X|X]; [congruence|]. exact (Tr _ _ _ X L).
    + exists pre, (post ++ [e]). rewrite Eq, <- app_assoc. split; [reflexivity|]. split; [exact F1|].
      apply Forall_app. split; [exact F2|]. constructor; auto.
Qed.

Theorem max_tree_ok free (t : raz_tree) : tree_reached free t ->
  max_tree leb t = Ok (iter_max leb (elts (contents t))) /\
  comp_max_tree leb t = Ok (comp_max_vec leb (elts (contents t))).
Proof.
  intros H. split.
  - destruct (list_rev_case (contents t)) as [C|(w & x & C)].
    + rewrite C. apply fold_up_gauged_empty. destruct (is_empty_ok t (tree_reached_good t H)) as [X _].
      rewrite C in X. unfold rt_is_empty in X. now destruct (rt_tree t).
    + destruct (fold_up_gauged_ok (fun v => unwrap "unwrap on None" (iter_max leb v))
        (fun m1 _ _ m2 => Ok (cmp_max leb m1 m2)) (fun l y => iter_max leb (elts l) = Some y) t) as (y & F & R).
      * intros v Hv. rewrite elts_map_Elt. destruct v as [|e v]; [congruence|]. simpl. eauto.
      * intros lv nm a b x0 y _ Ha Hb. eexists. split; [reflexivity|]. rewrite iter_max_reduce in *. rewrite elts_app. simpl.
        change (elts (Mark lv nm :: b)) with (elts b). apply reduce_app; auto. apply cmp_max_assoc.
      * exact (proj1 (tree_reached_good t H)).
      * rewrite C. now destruct w.
      * rewrite R. exact F.
  - unfold comp_max_tree, comp_max_vec. rewrite fold_up_assoc; [|apply cmp_max_assoc|exact (proj1 (tree_reached_good t H))].
    now rewrite map_id.
Qed.
End Max.

(** ** to_list *)
Theorem to_list_ok free {A} (IF : IFace E A) ok (t : raz_tree) : tree_reached free t -> is_lifo IF ok ->
  levels_in ok (contents t) -> answers_as IF ok (to_list IF t) (rev (elts (contents t))).
Proof.
  intros H L F. unfold to_list. rewrite fold_lr_meta_atoms by exact (proj1 (tree_reached_good t H)).
  revert F. generalize (contents t). clear t H.
  assert (X : forall l a acc, answers_as IF ok a acc -> levels_in ok l ->
    answers_as IF ok (fold_left (sp_visit seq_push if_archive) l a) (rev (elts l) ++ acc)).
  { induction l as [|[e|m n] l IH]; intros a acc Ha F; [exact Ha| |].
    - simpl. rewrite <- app_assoc. apply IH; [|exact F]. apply (answers_step IF ok a acc Ha).
    - unfold levels_in in F. simpl in F. apply Forall_cons_iff in F as [F1 F2]. simpl. apply IH; [|exact F2].
      now apply (answers_step IF ok a acc Ha). }
  intros l F. specialize (X l if_new [] L F). now rewrite app_nil_r in X.
Qed.

(** ** unique_elms *)
Section Unique.
Context (keqb : E -> E -> bool) (my_hash : E -> N) (debug : bool) (keqb_spec : forall a b, keqb a b = true <-> a = b)
  (pathlen : nat) (Hp : 0 < pathlen) (Hd : debug = true -> pathlen < 64).

Notation rep := (rep (V := unit) keqb my_hash pathlen).
Notation put := (fun (a : res (skiplist E unit)) e => do s <- a; sk_put keqb my_hash debug s e tt).
Notation arch := (fun (a : res (skiplist E unit)) nm => match nm with None => a | Some nm => do s <- a; Ok (sk_archive s nm) end).

Lemma unique_fold (l : atoms) : forall prev h s, rep h s ->
  exists s', sp_lr_archive put arch (fun a _ => a) prev (Ok s) l = Ok s' /\
    rep (rev (map (fun e => (e, Some tt)) (elts l)) ++ h) s'.
Proof.
  assert (Ar : forall nm h s, rep h s -> exists s', arch (Ok s) nm = Ok s' /\ rep h s').
  { intros [n|] h s R; [|eauto]. exists (sk_archive s n). split; [reflexivity|]. now apply rep_archive. }
  induction l as [|[e|m n] l IH]; intros prev h s R; cbn [sp_lr_archive].
  - apply (Ar prev h s R).
  - destruct (sk_step_spec keqb my_hash debug keqb_spec pathlen Hp Hd h s (MPut e tt) R) as (s1 & P & R1).
    cbn [sk_step map_spec_step fst snd] in P, R1. destruct (sk_put keqb my_hash debug s e tt) as [s2| |] eqn:Q; try discriminate.
    cbn [bind] in P. injection P as ->. cbn [bind]. rewrite Q. destruct (IH prev _ _ R1) as (s' & F & R').
    exists s'. split; [exact F|]. simpl. rewrite <- app_assoc. exact R'.
  - destruct (Ar prev h s R) as (s1 & A & R1). rewrite A. destruct (IH n h s1 R1) as (s' & F & R').
    exists s'. auto.
Qed.

Lemma bound_units (l : list E) k : bound keqb (rev (map (fun e => (e, Some tt)) l)) k = if existsb (keqb k) l then Some tt else None.
Proof.
  assert (X : forall h : list (E * option unit), Forall (fun p => snd p = Some tt) h ->
    bound keqb h k = if existsb (keqb k) (map fst h) then Some tt else None).
  { induction h as [|[k0 o] h IH]; intros F; [reflexivity|]. apply Forall_cons_iff in F as [F1 F2]. simpl in *. subst o.
    destruct (keqb k k0); simpl; auto. }
  rewrite X.
  - rewrite map_rev, map_map. cbn [fst]. rewrite map_id.
    assert (Y : existsb (keqb k) (rev l) = existsb (keqb k) l).
    { apply Bool.eq_iff_eq_true. rewrite !existsb_exists. split; intros (x & I & Hx); exists x; (split; [|exact Hx]).
      - now apply in_rev. - apply -> in_rev. exact I. }
    now rewrite Y.
  - apply Forall_rev. apply Forall_map. simpl. clear. induction l; constructor; auto.
Qed.

Theorem unique_elms_ok free (t : raz_tree) : tree_reached free t ->
  exists s, unique_elms keqb my_hash debug pathlen t = Ok s /\
    forall k, sk_get keqb my_hash debug s k = Ok (if existsb (keqb k) (elts (contents t)) then Some tt else None).
Proof.
  intros H. unfold unique_elms. rewrite fold_lr_archive_atoms by exact (proj1 (tree_reached_good t H)).
  assert (R0 : rep [] (sk_archive (sk_emp pathlen NUnit) NUnit)) by apply rep_archive, rep_emp.
  assert (X : exists s', match contents t with [] => Ok (sk_archive (sk_emp pathlen NUnit) NUnit)
      | l => sp_lr_archive put arch (fun a _ => a) (Some (NStr "start")) (Ok (sk_archive (sk_emp pathlen NUnit) NUnit)) l end = Ok s' /\
      rep (rev (map (fun e => (e, Some tt)) (elts (contents t))) ++ []) s').
  { destruct (contents t) as [|a l]; [eauto|]. apply unique_fold, R0. }
  destruct X as (s' & F & R). exists s'. split; [exact F|]. intros k.
  rewrite (sk_get_spec keqb my_hash debug pathlen Hp Hd _ _ k R), app_nil_r. now rewrite bound_units.
Qed.
End Unique.

(** Archive points of reached trees have level at least 1. *)
Lemma reached_levels free (t : raz_tree) : tree_reached free t -> levels_in (fun lv => (1 <= lv)%N) (contents t).
Proof.
  intros H. destruct (tree_reached_good t H) as [O _]. revert O. unfold contents. clear H.
  destruct (rt_tree t) as [tr|]; [|constructor]. cbn [otree_ok otwf].
  induction tr as [lv nm d l r Hl Hr] using tree_induction. intros O.
  destruct (tree_ok_case _ O) as [(v & X & Hv)|(lv' & nm' & ml & mr & tl & tr & X & Lv & Ml & Mr & Kl & Kr)]; inv X.
  - change (Node 0%N None (Leaf v) None None) with (@leaf_of E M v). rewrite tree_atoms_leaf. apply levels_in_Elt.
  - rewrite tree_atoms_branch. apply levels_in_app. split; [now apply Hl|].
    unfold levels_in. simpl. constructor; [exact Lv|]. now apply Hr.
Qed.
Theorem to_list_reached free {A} (IF : IFace E A) (ok : level -> Prop) (t : raz_tree) : tree_reached free t ->
  is_lifo IF ok -> (forall lv, (1 <= lv)%N -> ok lv) -> answers_as IF ok (to_list IF t) (rev (elts (contents t))).
Proof.
  intros H L W. eapply to_list_ok; eauto. eapply Forall_impl; [|exact (reached_levels free t H)]. intros [lv nm]. apply W.
Qed.
Theorem reverse_twice free (t : raz_tree) : tree_reached free t -> contents t <> [] ->
  exists t1 t2, reverse_tree t = Ok (Some t1) /\ reverse_tree t1 = Ok (Some t2) /\ contents t2 = contents t.
Proof.
  intros H Ne. destruct (reverse_ok free t H Ne) as (t1 & R1 & H1 & C1).
  destruct (reverse_ok true t1 H1) as (t2 & R2 & H2 & C2).
  - rewrite C1. destruct (contents t); [congruence|]. simpl. now destruct (rev l).
  - exists t1, t2. rewrite C2, C1, rev_involutive. auto.
Qed.

Theorem max_all (leb : E -> E -> bool) (tp : total_preorder leb) free (t : raz_tree) :
  tree_reached free t -> contents t <> [] ->
  exists x, max_tree leb t = Ok (Some x) /\ comp_max_tree leb t = Ok (Some x) /\
    max_native leb (elts (contents t)) = Ok x /\ comp_max_vec leb (elts (contents t)) = Some x /\
    last_greatest leb (elts (contents t)) x.
Proof.
  intros H Ne. destruct (max_tree_ok leb tp free t H) as [H1 H2].
  destruct (iter_max leb (elts (contents t))) as [x|] eqn:Em.
  - exists x. unfold comp_max_vec, max_native in *. rewrite Em in *. split; [exact H1|]. split; [exact H2|].
    split; [reflexivity|]. split; [reflexivity|]. now apply iter_max_last.
  - exfalso. destruct (elts (contents t)) eqn:El; [|discriminate].
    destruct (fold_up_gauged_ok (fun v : list E => Ok v) (fun a _ _ b => Ok (a ++ b)) (fun l (_ : list E) => elts l <> []) t) as (y & _ & X).
    + intros v Hv. exists v. split; [reflexivity|]. rewrite elts_map_Elt. exact Hv.
    + intros lv nm a b x y _ Ha Hb. eexists. split; [reflexivity|]. rewrite elts_app. now destruct (elts a).
    + exact (proj1 (tree_reached_good t H)).
    + exact Ne.
    + congruence.
Qed.
Theorem max_none (leb : E -> E -> bool) (tp : total_preorder leb) free (t : raz_tree) :
  tree_reached free t -> contents t = [] ->
  max_tree leb t = Ok None /\ comp_max_tree leb t = Ok None /\
  max_native leb (elts (contents t)) = Panic "unwrap on None".
Proof. intros H C. destruct (max_tree_ok leb tp free t H) as [H1 H2]. rewrite C in *. auto. Qed.
End Trees.
