(** * Raz proofs, part 3: focusing, and uniqueness of canonical trees. *)

From Verif Require Import Base BaseFacts Spec SpecRaz StackModel AStackModel StackProofs
  LevelTreeModel TreeCursorModel RazMetaModel RazModel TreeSpec TreeProofs CursorProofs RazView
  RazProofs RazUnfocus.

Section Focus.
Context {E M : Type} {RM : RazMeta E M}.
Notation rtree := (tree (tree_data E M)).
Notation rcursor := (cursor (tree_data E M)).
Notation atoms := (list (atom E level)).
Notation W := (@node_ok E M RM).
Notation obs := (@item_atoms E M).
Notation corder := (@corder (tree_data E M)).
Notation cobs := (cobs obs).
Notation lf_item := (lf_item W branchy present).
Notation rf_item := (rf_item W branchy present).
Notation leaf_of := (@leaf_of E M).
Notation branch_of lv nm ml mr tl tr := (Node lv nm (Branch ml mr) (Some tl) (Some tr)).

(** ** Cursors during a search *)
Record at_node (c : rcursor) (t : rtree) : Prop := {
  an_tree : c_tree c = Some t;
  an_ok : tree_ok t;
  an_lf : Forall lf_item (l_forest c);
  an_rf : Forall rf_item (r_forest c)
}.

Lemma at_down_left c lv nm ml mr tl tr : at_node c (branch_of lv nm ml mr tl tr) ->
  exists c', down_left c = (true, c') /\ at_node c' tl /\
    l_forest c' = l_forest c /\
    rf_obs obs (r_forest c') = Mark lv nm :: tree_atoms (Some tr) ++ rf_obs obs (r_forest c) /\
    (corder c -> corder c').
Proof.
  intros [T O L R]. unfold down_left, down_left_force. rewrite T. simpl.
  eexists. split; [reflexivity|].
  destruct (tree_ok_case _ O) as [(v & X & _)|(? & ? & ? & ? & ? & ? & X & Lv & _ & _ & Kl & Kr)]; inv X.
  split; [|split; [reflexivity|split; [reflexivity|]]].
  - constructor; simpl; auto. constructor; auto. split; [|split]; simpl; auto.
    + split; [exact Lv|]. eauto.
    + discriminate.
  - intros [O1 O2 O3 O4 O5]. rewrite T in *. simpl in O1, O4, O5. destruct O1 as (Q1 & Q2 & Q3 & Q4).
    constructor; simpl; auto. destruct (l_forest c) as [|[? ?] ?]; simpl in *; auto. lia.
Qed.

Lemma at_down_right c lv nm ml mr tl tr : at_node c (branch_of lv nm ml mr tl tr) ->
  exists c', down_right c = (true, c') /\ at_node c' tr /\
    r_forest c' = r_forest c /\
    lf_obs obs (l_forest c') = lf_obs obs (l_forest c) ++ tree_atoms (Some tl) ++ [Mark lv nm] /\
    (corder c -> corder c').
Proof.
  intros [T O L R]. unfold down_right, down_right_force. rewrite T. simpl.
  eexists. split; [reflexivity|].
  destruct (tree_ok_case _ O) as [(v & X & _)|(? & ? & ? & ? & ? & ? & X & Lv & _ & _ & Kl & Kr)]; inv X.
  split; [|split; [reflexivity|split; [reflexivity|]]].
  - constructor; simpl; auto. constructor; auto. split; [|split]; simpl; auto.
    + split; [exact Lv|]. eauto.
    + discriminate.
  - intros [O1 O2 O3 O4 O5]. rewrite T in *. simpl in O1, O4, O5. destruct O1 as (Q1 & Q2 & Q3 & Q4).
    constructor; simpl; auto. destruct (r_forest c) as [|[? ?] ?]; simpl in *; auto. lia.
Qed.

Lemma at_down_right_all c t : at_node c t ->
  exists c' v, down_right_all c = Ok c' /\ at_node c' (leaf_of v) /\
    r_forest c' = r_forest c /\
    lf_obs obs (l_forest c') ++ map Elt v = lf_obs obs (l_forest c) ++ tree_atoms (Some t) /\
    (corder c -> corder c').
Proof.
  intros A. unfold down_right_all.
  assert (H : exists c', loop (S (ot_size (c_tree c)))
       (fun c => match down_right c with
                 | (true, c') => Ok (inl c')
                 | (false, c') => Ok (inr c')
                 end) c = Ok c' /\
    (exists v, at_node c' (leaf_of v) /\ r_forest c' = r_forest c /\
    lf_obs obs (l_forest c') ++ map Elt v = lf_obs obs (l_forest c) ++ tree_atoms (Some t) /\
    (corder c -> corder c'))).
  { apply (loop_total (fun s => exists t', at_node s t' /\ r_forest s = r_forest c /\
        lf_obs obs (l_forest s) ++ tree_atoms (Some t') = lf_obs obs (l_forest c) ++ tree_atoms (Some t) /\
        (corder c -> corder s)) _ (fun s => ot_size (c_tree s))); [|eauto 6|lia].
    intros s (t' & As & Rs & Os & Ks).
    destruct (tree_ok_case _ (an_ok _ _ As)) as [(v & -> & Hv)|(lv & nm & ml & mr & tl & tr & -> & _)].
    - exists (inr s). unfold down_right, down_right_force. rewrite (an_tree _ _ As). simpl.
      split; [reflexivity|]. exists v. rewrite tree_atoms_leaf in Os. auto.
    - destruct (at_down_right _ _ _ _ _ _ _ As) as (c' & D & A' & R' & O' & K'). rewrite D.
      exists (inl c'). split; [reflexivity|]. split.
      + exists tr. split; [exact A'|]. split; [congruence|]. split; [|auto].
        rewrite O', <- Os, tree_atoms_branch, <- !app_assoc. reflexivity.
      + rewrite (an_tree _ _ A'), (an_tree _ _ As). simpl. lia. }
  destruct H as (c' & H & v & R). exists c', v. auto.
Qed.

(** ** Where an index leads *)
Inductive loc : rtree -> Index -> atoms -> atoms -> Prop :=
| loc_leaf v i a b :
    split_vec v i = Ok (a, b) -> a ++ b = v -> loc (leaf_of v) i (map Elt a) (map Elt b)
| loc_left lv nm ml mr tl tr i i' p q :
    navigate ml mr i = Ok (NavLeft i') -> loc tl i' p q ->
    loc (branch_of lv nm ml mr tl tr) i p (q ++ Mark lv nm :: tree_atoms (Some tr))
| loc_right lv nm ml mr tl tr i i' p q :
    navigate ml mr i = Ok (NavRight i') -> loc tr i' p q ->
    loc (branch_of lv nm ml mr tl tr) i (tree_atoms (Some tl) ++ Mark lv nm :: p) q
| loc_here lv nm ml mr tl tr i :
    navigate ml mr i = Ok NavHere ->
    loc (branch_of lv nm ml mr tl tr) i (tree_atoms (Some tl)) (Mark lv nm :: tree_atoms (Some tr)).

Definition last_is_end : Prop := forall v : list E, split_vec v idx_last = Ok (v, []).

Lemma stack_extend_abs v : as_abs (as_extend (@as_new E level) v) = map Elt (rev v).
Proof. unfold as_abs. simpl. now rewrite app_nil_r, vatoms_eq. Qed.
Lemma stack_extend_rev_abs v : as_abs (as_extend_rev (@as_new E level) v) = map Elt v.
Proof. unfold as_abs. simpl. now rewrite app_nil_r, vatoms_eq, rev_involutive. Qed.
Lemma stack_ok_elts (s : astack E level) v : archived s = None -> as_abs s = map Elt v -> stack_ok s.
Proof.
  intros A H. split.
  - unfold as_inv. rewrite A. exact I.
  - unfold marks_pos. rewrite H, marks_map_Elt. constructor.
Qed.
Lemma ren_elts (v : list E) : map ren (map Elt v) = map Elt v.
Proof. now rewrite map_map. Qed.

(** The Raz made by splitting a leaf. *)
Lemma leaf_raz_sim c v a b : at_node c (leaf_of v) -> a ++ b = v ->
  forall l r, l = as_extend as_new a -> r = as_extend_rev as_new b ->
  let z := Raz (Cursor true (l_forest c) (left_tree c) []) l r (Cursor true [] (right_tree c) (r_forest c)) in
  sim z (sz_at (lf_obs obs (l_forest c) ++ map Elt a) (map Elt b ++ rf_obs obs (r_forest c))) /\
  (corder c -> ordered z).
Proof.
  intros [T O L R] Hv l r -> -> z. unfold z, left_tree, right_tree. rewrite T. simpl. split.
  - constructor; simpl.
    + constructor; simpl; auto.
    + constructor; simpl; auto.
    + eapply stack_ok_elts; [reflexivity|]. apply (stack_extend_abs a).
    + eapply stack_ok_elts; [reflexivity|]. apply (stack_extend_rev_abs b).
    + pose proof (stack_extend_abs a) as X. simpl in X. rewrite X, ren_elts, rev_app_distr, map_rev. reflexivity.
    + pose proof (stack_extend_rev_abs b) as X. simpl in X. rewrite X, ren_elts. reflexivity.
    + pose proof (stack_extend_abs a) as X. simpl in X. rewrite X, marks_map_Elt. reflexivity.
    + pose proof (stack_extend_rev_abs b) as X. simpl in X. rewrite X, marks_map_Elt. reflexivity.
  - intros [O1 O2 O3 O4 O5]. split; simpl; auto.
Qed.

Theorem focus_loc (t : raz_tree E M) tr i p q : last_is_end -> good t -> rt_tree t = Some tr -> loc tr i p q ->
  exists z, rt_focus t i = Ok (Some z) /\ sim z (sz_at p q) /\ (canonical t -> ordered z).
Proof.
  intros LE [G _] T LC. unfold rt_focus. rewrite T in *. simpl in G.
  assert (H : exists r, loop (S (t_size tr)) focus_step (c_from tr, i) = Ok r /\
    (exists c i' v a b, r = Some (c, i') /\ at_node c (leaf_of v) /\ split_vec v i' = Ok (a, b) /\ a ++ b = v /\
      lf_obs obs (l_forest c) ++ map Elt a = p /\ map Elt b ++ rf_obs obs (r_forest c) = q /\
      (conventional tr -> corder c))).
  { apply (loop_total (fun '(c, i') => exists t' p' q', at_node c t' /\ loc t' i' p' q' /\
        lf_obs obs (l_forest c) ++ p' = p /\ q' ++ rf_obs obs (r_forest c) = q /\
        (conventional tr -> corder c)) _ (fun '(c, _) => ot_size (c_tree c))).
    - intros [c i'] (t' & p' & q' & A & LC' & Hp & Hq & K). unfold focus_step, c_peek.
      rewrite (an_tree _ _ A). inversion LC' as [v i0 a b Hs Hab|lv nm ml mr tl tr' i0 i1 p1 q1 Hn HL|
        lv nm ml mr tl tr' i0 i1 p1 q1 Hn HL|lv nm ml mr tl tr' i0 Hn]; subst; simpl.
      + eexists. split; [reflexivity|]. do 5 eexists. split; [reflexivity|]. eauto 8.
      + rewrite Hn. cbn [bind].
        destruct (at_down_left _ _ _ _ _ _ _ A) as (c' & -> & A' & L' & R' & K'). simpl.
        eexists. split; [reflexivity|]. cbv beta iota. split.
        * exists tl, p', q1. split; [exact A'|]. split; [exact HL|]. split; [congruence|].
          split; [|auto]. rewrite R', <- app_assoc. reflexivity.
        * rewrite (an_tree _ _ A'). simpl. lia.
      + rewrite Hn. cbn [bind].
        destruct (at_down_right _ _ _ _ _ _ _ A) as (c' & -> & A' & L' & R' & K'). simpl.
        eexists. split; [reflexivity|]. cbv beta iota. split.
        * exists tr', p1, q'. split; [exact A'|]. split; [exact HL|].
          split; [rewrite R', <- !app_assoc; reflexivity|]. split; [congruence|auto].
        * rewrite (an_tree _ _ A'). simpl. lia.
      + rewrite Hn. cbn [bind].
        destruct (at_down_left _ _ _ _ _ _ _ A) as (c' & -> & A' & L' & R' & K'). simpl.
        destruct (at_down_right_all _ _ A') as (c2 & v & -> & A2 & R2 & L2 & K2). simpl.
        eexists. split; [reflexivity|]. cbv beta iota. split.
        * exists (leaf_of v), (map Elt v), []. split; [exact A2|].
          split; [change (@nil (atom E level)) with (map (@Elt E level) []); constructor; [apply LE|apply app_nil_r]|].
          split; [congruence|]. split; [|auto]. rewrite R2, R'. reflexivity.
        * rewrite (an_tree _ _ A2). simpl.
          destruct (tree_ok_case _ (an_ok _ _ A')) as [(? & -> & _)|(? & ? & ? & ? & ? & ? & -> & _)]; simpl; lia.
    - exists tr, p, q. simpl. split; [constructor; simpl; auto|]. split; [exact LC|].
      split; [reflexivity|]. split; [apply app_nil_r|]. intros. now apply corder_from.
    - simpl. lia. }
  destruct H as (r & -> & c & i' & v & a & b & -> & A & Hs & Hab & Hp & Hq & K).
  cbn [bind]. unfold c_split. rewrite (an_tree _ _ A). cbn [t_peek RazProofs.leaf_of]. rewrite Hs. cbn [bind].
  eexists. split; [reflexivity|].
  destruct (leaf_raz_sim c v a b A Hab _ _ eq_refl eq_refl) as (S1 & S2). cbv zeta in S1, S2.
  rewrite Hp, Hq in S1. split; [exact S1|]. intros [_ Cn]. rewrite T in Cn. auto.
Qed.

(** ** focus_left *)
Lemma at_down_left_all c t : at_node c t ->
  exists c' v, down_left_all c = Ok c' /\ at_node c' (leaf_of v) /\
    l_forest c' = l_forest c /\
    map Elt v ++ rf_obs obs (r_forest c') = tree_atoms (Some t) ++ rf_obs obs (r_forest c) /\
    (corder c -> corder c').
Proof.
  intros A. unfold down_left_all.
  assert (H : exists c', loop (S (ot_size (c_tree c)))
       (fun c => match down_left c with
                 | (true, c') => Ok (inl c')
                 | (false, c') => Ok (inr c')
                 end) c = Ok c' /\
    (exists v, at_node c' (leaf_of v) /\ l_forest c' = l_forest c /\
    map Elt v ++ rf_obs obs (r_forest c') = tree_atoms (Some t) ++ rf_obs obs (r_forest c) /\
    (corder c -> corder c'))).
  { apply (loop_total (fun s => exists t', at_node s t' /\ l_forest s = l_forest c /\
        tree_atoms (Some t') ++ rf_obs obs (r_forest s) = tree_atoms (Some t) ++ rf_obs obs (r_forest c) /\
        (corder c -> corder s)) _ (fun s => ot_size (c_tree s))); [|eauto 6|lia].
    intros s (t' & As & Rs & Os & Ks).
    destruct (tree_ok_case _ (an_ok _ _ As)) as [(v & -> & Hv)|(lv & nm & ml & mr & tl & tr & -> & _)].
    - exists (inr s). unfold down_left, down_left_force. rewrite (an_tree _ _ As). simpl.
      split; [reflexivity|]. exists v. rewrite tree_atoms_leaf in Os. auto.
    - destruct (at_down_left _ _ _ _ _ _ _ As) as (c' & D & A' & R' & O' & K'). rewrite D.
      exists (inl c'). split; [reflexivity|]. split.
      + exists tl. split; [exact A'|]. split; [congruence|]. split; [|auto].
        rewrite O', <- Os, tree_atoms_branch, <- !app_assoc. reflexivity.
      + rewrite (an_tree _ _ A'), (an_tree _ _ As). simpl. lia. }
  destruct H as (c' & H & v & R). exists c', v. auto.
Qed.

Theorem focus_left_sim (t : raz_tree E M) : good t ->
  exists z, rt_focus_left t = Ok z /\ sim z (sz_at [] (contents t)) /\ (canonical t -> ordered z).
Proof.
  intros [G _]. unfold rt_focus_left, contents. destruct (rt_tree t) as [tr|] eqn:T.
  - destruct (at_down_left_all (c_from tr) tr) as (c & v & -> & A & L & R & K).
    { constructor; simpl; auto. }
    cbn [bind]. unfold c_split. rewrite (an_tree _ _ A). cbn [t_peek RazProofs.leaf_of].
    eexists. split; [reflexivity|].
    destruct (leaf_raz_sim c v [] v A eq_refl as_new _ eq_refl eq_refl) as (S1 & S2). cbv zeta in S1, S2.
    simpl in R. rewrite app_nil_r in R. rewrite L, R in S1. simpl in S1. rewrite L in *. split; [exact S1|].
    intros [_ Cn]. rewrite T in Cn. apply S2, K. now apply corder_from.
  - exists raz_new. destruct sim_new as [S O]. auto.
Qed.

Lemma focus_empty (t : raz_tree E M) i : rt_tree t = None ->
  rt_focus t i = Ok (Some raz_new) /\ contents t = [].
Proof. intros H. unfold rt_focus, contents. rewrite H. auto. Qed.

(** ** Uniqueness of canonical trees *)
Definition atom_key (a : atom E level) : N := match a with Elt _ => 0%N | Mark m _ => m end.

Lemma atoms_bounded (t : rtree) : tree_ok t -> conventional t ->
  Forall (fun a => (atom_key a <= t_level t)%N) (tree_atoms (Some t)).
Proof.
  induction t as [lv nm d l r Hl Hr] using tree_induction. intros O C.
  destruct (tree_ok_case _ O) as [(v & X & Hv)|(lv' & nm' & ml & mr & tl & tr & X & Lv & _ & _ & Kl & Kr)]; inv X.
  - change (Node 0%N None (Leaf v) None None) with (leaf_of v). rewrite tree_atoms_leaf.
    apply Forall_map. simpl. apply Forall_forall. intros. lia.
  - simpl in C. destruct C as (Q1 & Q2 & Q3 & Q4). simpl in Hl, Hr, Q1, Q2. rewrite tree_atoms_branch.
    apply Forall_app. split; [|constructor].
    + eapply Forall_impl; [|apply Hl; assumption]. simpl. intros. lia.
    + simpl. lia.
    + eapply Forall_impl; [|apply Hr; assumption]. simpl. intros. lia.
Qed.

Theorem tree_unique (t1 : rtree) : forall t2, tree_ok t1 -> tree_ok t2 -> conventional t1 -> conventional t2 ->
  tree_atoms (Some t1) = tree_atoms (Some t2) -> t1 = t2.
Proof.
  assert (NoMark : forall v l lv nm r, map (@Elt E level) v = l ++ Mark lv nm :: r -> False).
  { induction v as [|x v IH]; intros [|a l] lv nm r X; simpl in X; try discriminate.
    injection X as _ X. eauto. }
  induction t1 as [lv nm d l r Hl Hr] using tree_induction. intros t2 O1 O2 C1 C2 At.
  destruct (tree_ok_case _ O1) as [(v & X & Hv)|(lv1 & nm1 & ml & mr & tl & tr & X & Lv & Ml & Mr & Kl & Kr)]; inv X;
  destruct (tree_ok_case _ O2) as [(v2 & -> & Hv2)|(lv2 & nm2 & ml2 & mr2 & tl2 & tr2 & -> & Lv2 & Ml2 & Mr2 & Kl2 & Kr2)].
  - change (Node 0%N None (Leaf v) None None) with (leaf_of v) in *. rewrite !tree_atoms_leaf in At.
    f_equal. clear -At. revert v2 At. induction v; intros [|y v2] H; simpl in H; try discriminate; auto.
    injection H as -> H. f_equal. auto.
  - change (Node 0%N None (Leaf v) None None) with (leaf_of v) in *. rewrite tree_atoms_leaf, tree_atoms_branch in At. elim (NoMark _ _ _ _ _ At).
  - rewrite tree_atoms_leaf, tree_atoms_branch in At. symmetry in At. elim (NoMark _ _ _ _ _ At).
  - rewrite !tree_atoms_branch in At. simpl in C1, C2. destruct C1 as (Q1 & Q2 & Q3 & Q4). destruct C2 as (Z1 & Z2 & Z3 & Z4).
    destruct (split_max_unique atom_key _ _ _ _ _ _ At) as (Ea & Ex & Eb).
    + eapply Forall_impl; [|apply atoms_bounded; eassumption]. simpl in *. intros. lia.
    + eapply Forall_impl; [|apply atoms_bounded; eassumption]. simpl in *. intros. lia.
    + eapply Forall_impl; [|apply atoms_bounded; eassumption]. simpl in *. intros. lia.
    + eapply Forall_impl; [|apply atoms_bounded; eassumption]. simpl in *. intros. lia.
    + injection Ex as -> ->. simpl in Hl, Hr.
      assert (tl = tl2) by auto. assert (tr = tr2) by auto. subst.
      rewrite Ml in Ml2. rewrite Mr in Mr2. congruence.
Qed.

Theorem canonical_unique (t1 t2 : raz_tree E M) : canonical t1 -> canonical t2 -> contents t1 = contents t2 -> t1 = t2.
Proof.
  intros [[O1 M1] C1] [[O2 M2] C2] At. destruct t1 as [m1 o1], t2 as [m2 o2].
  unfold contents in At. simpl in *.
  assert (o1 = o2) as ->; [|congruence].
  destruct o1 as [t1|], o2 as [t2|]; auto.
  - f_equal. now apply tree_unique.
  - destruct (tree_atoms_ends _ O1) as ((e & l & X) & _). rewrite X in At. discriminate.
  - destruct (tree_atoms_ends _ O2) as ((e & l & X) & _). rewrite X in At. discriminate.
Qed.

End Focus.
