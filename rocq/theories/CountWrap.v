(** * Raz proofs: element counts past the range of [usize].

    Sharing makes trees with 2^64 elements cheap: each [join] of a tree with itself
    doubles the contents and adds one node. *)

From Verif Require Import Base BaseFacts Spec SpecRaz StackModel AStackModel StackScripts StackProofs
  LevelTreeModel TreeCursorModel RazMetaModel RazModel TreeSpec TreeProofs CursorProofs RazView
  RazProofs RazUnfocus RazFocus RazIndex RazOps RazFrom RazScripts RazReach RazSession RazFacts RazMetaFacts.

Section Wrap.
Context {E : Type}.
Notation branch_of lv nm ml mr tl tr := (Node lv nm (Branch ml mr) (Some tl) (Some tr)).

Lemma marked_branch (t : tree (tree_data E count)) : tree_ok t -> marks (tree_atoms (Some t)) <> [] ->
  exists lv nm ml mr tl tr, t = branch_of lv nm ml mr tl tr.
Proof.
  intros O Mk.
  destruct (tree_ok_case _ O) as [(v & X & Hv)|(lv' & nm' & ml & mr & tl & tr' & X & _)]; subst t.
  - elim Mk. rewrite tree_atoms_leaf. apply marks_map_Elt.
  - eauto 10.
Qed.

(** The count of a branch is below 2^64. *)
Lemma count_fits (t : raz_tree E count) : good t -> marks (contents t) <> [] ->
  (count_n (rt_meta t) = n_elts (contents t) mod usize_mod)%N.
Proof.
  intros G Mk. destruct (count_meta_acc t G) as [A _]. rewrite <- A. symmetry. apply N.mod_small.
  destruct G as [O Mt]. destruct t as [m [tr|]]; [|now elim Mk]. simpl in *.
  destruct (marked_branch tr O Mk) as (lv & nm & ml & mr & tl & tr' & ->). simpl in Mt. injection Mt as <-.
  simpl. apply N.mod_lt. discriminate.
Qed.

(** An index above the count stored at a branch is nowhere. *)
Lemma focus_above_count (t : raz_tree E count) (i : N) : good t -> marks (contents t) <> [] ->
  (n_elts (contents t) mod usize_mod < i)%N -> i <> usize_max ->
  rt_focus t i = Ok None.
Proof.
  intros G Mk. rewrite <- (count_fits t G Mk). intros Hi Nm. destruct G as [O Mt].
  destruct t as [m [tr|]]; [|now elim Mk]. unfold contents in Mk. simpl in O, Mt, Hi, Mk.
  destruct (marked_branch tr O Mk) as (lv & nm & ml & mr & tl & tr' & ->).
  simpl in Mt. injection Mt as <-. simpl in Hi.
  unfold rt_focus. cbn. unfold count_navigate.
  apply N.eqb_neq in Nm. rewrite Nm. apply N.ltb_lt in Hi. now rewrite Hi.
Qed.

Lemma join_parts (a b t : raz_tree E count) lev nm : good a -> good b ->
  rt_join a lev nm b = Ok (Some t) ->
  exists ta tb ml mr, rt_tree a = Some ta /\ rt_tree b = Some tb /\
    rt_tree t = Some (branch_of lev nm ml mr ta tb) /\
    branch_meta lev nm (Some (t_peek ta)) = Ok ml /\ branch_meta lev nm (Some (t_peek tb)) = Ok mr.
Proof.
  intros [Oa _] [Ob _]. unfold rt_join.
  destruct (rt_tree a) as [ta|] eqn:Ta; [|discriminate].
  destruct (rt_tree b) as [tb|] eqn:Tb; [|discriminate]. simpl in Oa, Ob.
  destruct (bin_ok ta tb lev nm) as (ml & mr & Bn & Ml & Mr); try now apply tree_ok_solid.
  rewrite Bn. cbn [bind].
  destruct (mk_solid (branch_of lev nm ml mr ta tb)) as (m & -> & Mt); [discriminate|]. cbn [bind].
  intros J. inv J. exists ta, tb, ml, mr. auto.
Qed.

(** [k] joins of a one-element tree with itself. *)
Lemma doubled (e : E) (k : nat) : exists t : raz_tree E count,
  tree_reached false t /\ contents t <> [] /\ elts (contents t) = repeat e (2 ^ k) /\
  (k <> 0 -> marks (contents t) <> []) /\ lev_lt (rt_tree t) (N.of_nat k + 1)%N.
Proof.
  induction k as [|k (t & R & C & El & _ & L)].
  - destruct (rt_from_vec (M := count) [e]) as [[t|]| |] eqn:F; try discriminate F.
    exists t. split; [exact (TR_from_vec false E count _ [e] t F)|].
    unfold rt_from_vec in F. simpl in F. injection F as <-. repeat split; try discriminate.
    intros H. now elim H.
  - pose proof (tree_reached_good t R) as Gt.
    destruct (join_ok t t (N.of_nat k + 1)%N None) as (u & J & G & Cu & _); try assumption; try lia.
    exists u. split.
    { apply (TR_join false E count _ t (N.of_nat k + 1)%N None t u); try assumption; try lia.
      intros _. split; [assumption|]. unfold lev_le, lev_lt in *. destruct (rt_tree t); [lia|exact I]. }
    rewrite Cu. split; [intros X; apply (f_equal (@length _)) in X; rewrite app_length in X; simpl in X; lia|].
    split. { rewrite elts_app. simpl. rewrite El, <- repeat_app. f_equal. lia. }
    split. { intros _ X. apply (f_equal (@length _)) in X. rewrite marks_app, app_length in X. simpl in X. lia. }
    destruct (join_parts _ _ _ _ _ Gt Gt J) as (ta & tb & ml & mr & _ & _ & -> & _). simpl. lia.
Qed.

Lemma pow_full : N.of_nat (2 ^ 64) = usize_mod.
Proof. rewrite Nat2N.inj_pow. reflexivity. Qed.

Lemma full_tree (e : E) : exists t : raz_tree E count,
  tree_reached false t /\ (forall x, In x (elts (contents t)) -> x = e) /\
  n_elts (contents t) = usize_mod /\ marks (contents t) <> [] /\ lev_lt (rt_tree t) 65%N.
Proof.
  destruct (doubled e 64) as (t & R & _ & El & Mk & L). exists t. split; [exact R|].
  split; [intros x; rewrite El; apply repeat_spec|].
  split; [unfold n_elts; rewrite El, repeat_length; apply pow_full|].
  split; [apply Mk; discriminate|exact L].
Qed.

(** Beside a left part whose count wrapped to 0, an index counts from the archive point. *)
Lemma focus_beside (a b t : raz_tree E count) lev nm i : good a -> good b ->
  rt_join a lev nm b = Ok (Some t) -> good t -> marks (contents a) <> [] ->
  (n_elts (contents a) mod usize_mod = 0)%N -> (n_elts (contents b) < usize_max)%N ->
  1 <= i <= length (elts (contents b)) ->
  exists z, rt_focus t (N.of_nat i) = Ok (Some z) /\
    sim z (sz_at (contents a ++ Mark lev nm :: fst (split_count i (contents b))) (snd (split_count i (contents b)))).
Proof.
  intros Ga Gb J Gt Mk Za Lb Hi.
  destruct (join_parts _ _ _ _ _ Ga Gb J) as (ta & tb & ml & mr & Ta & Tb & Tt & Ml & Mr).
  pose proof (count_fits a Ga Mk) as Ca. rewrite Za in Ca.
  destruct Ga as [Oa Ma]. destruct Gb as [Ob Mb]. unfold contents in *. rewrite Ta, Tb in *. simpl in Oa, Ob.
  destruct (marked_branch ta Oa Mk) as (lv & nm' & l & r & tl & tr & ->).
  simpl in Ma, Ml. injection Ma as Ma. injection Ml as <-. rewrite <- Ma in Ca. simpl in Ca.
  destruct (count_branch _ _ _ _ Ob Mr) as [_ B].
  assert (Lb' : (n_elts (tree_atoms (Some tb)) < usize_mod)%N) by (eapply N.lt_trans; [exact Lb|reflexivity]).
  specialize (B Lb').
  assert (Li : (N.of_nat i <= n_elts (tree_atoms (Some tb)))%N) by (unfold n_elts; lia).
  destruct (focus_loc t _ (N.of_nat i : @Index E count (count_meta E))
    (tree_atoms (Some (branch_of lv nm' l r tl tr)) ++ Mark lev nm :: fst (split_count i (tree_atoms (Some tb))))
    (snd (split_count i (tree_atoms (Some tb)))) count_last_end Gt Tt) as (z & F & S & _).
  - eapply loc_right; [|apply loc_count; [exact Ob|exact Lb'|lia|eapply N.le_lt_trans; [exact Li|exact Lb]]].
    simpl. unfold count_navigate. simpl count_n. rewrite Ca.
    assert (NM : (N.of_nat i =? usize_max)%N = false) by (apply N.eqb_neq; intros X; rewrite X in Li; exact (N.lt_irrefl _ (N.lt_le_trans _ _ _ Lb Li))).
    assert (C0 : (usize_add 0 (count_n mr) <? N.of_nat i)%N = false).
    { apply N.ltb_ge. unfold usize_add. rewrite N.add_0_l, B, N.mod_small by exact Lb'. exact Li. }
    assert (C1 : (0 <? N.of_nat i)%N = true) by (apply N.ltb_lt; lia).
    rewrite NM, C0, C1, N.sub_0_r. reflexivity.
  - eauto.
Qed.

Lemma beside_behaves (a b t : raz_tree E count) free lev nm i : tree_reached free a -> tree_reached free b ->
  tree_reached free t -> rt_join a lev nm b = Ok (Some t) -> marks (contents a) <> [] ->
  (n_elts (contents a) mod usize_mod = 0)%N -> (n_elts (contents b) < usize_max)%N ->
  1 <= i <= length (elts (contents b)) ->
  exists z, rt_focus t (N.of_nat i) = Ok (Some z) /\
    behaves z (rev (elts (contents a) ++ firstn i (elts (contents b)))) (skipn i (elts (contents b))).
Proof.
  intros Ra Rb Rt J Mk Za Lb Hi.
  destruct (focus_beside a b t lev nm i (tree_reached_good _ Ra) (tree_reached_good _ Rb) J
    (tree_reached_good _ Rt) Mk Za Lb Hi) as (z & F & S).
  exists z. split; [exact F|]. pose proof (sim_session _ _ S) as Ss.
  pose proof (split_count_elts (contents b) i) as [A B].
  destruct (split_count i (contents b)) as [p q]. simpl in A, B, Ss. rewrite <- A, <- B.
  pose proof (session_at_behaves _ _ _ Ss) as Bh. rewrite elts_app in Bh. exact Bh.
Qed.

Lemma full_refused (e : E) : exists t : raz_tree E count,
  tree_reached false t /\ n_elts (contents t) = usize_mod /\ marks (contents t) <> [] /\
  rt_meta t = Count 0 /\ rt_focus t (1%N : @Index E count _) = Ok None.
Proof.
  destruct (full_tree e) as (t & R & _ & Nt & Mk & _). exists t. pose proof (tree_reached_good t R) as G.
  split; [exact R|]. split; [exact Nt|]. split; [exact Mk|]. split.
  - pose proof (count_fits t G Mk) as C. rewrite Nt in C. destruct (rt_meta t). simpl in C. now rewrite C.
  - apply focus_above_count; [exact G|exact Mk|rewrite Nt; reflexivity|discriminate].
Qed.

Lemma full_beside (e e' : E) : exists (a b t : raz_tree E count),
  tree_reached false a /\ tree_reached false b /\ tree_reached false t /\
  rt_join a 65%N None b = Ok (Some t) /\ marks (contents a) <> [] /\
  (n_elts (contents a) mod usize_mod = 0)%N /\ elts (contents b) = [e'] /\
  n_elts (contents t) = (usize_mod + 1)%N /\ rt_meta t = Count 1.
Proof.
  destruct (full_tree e) as (a & Ra & _ & Na & Mk & La).
  destruct (rt_from_vec (M := count) [e']) as [[b|]| |] eqn:F; try discriminate F.
  pose proof (TR_from_vec false E count _ [e'] b F) as Rb.
  unfold rt_from_vec in F. simpl in F. injection F as <-.
  destruct (join_ok a (RazTree (Count 1) (Some (leaf_of [e']))) 65%N None (tree_reached_good a Ra) (tree_reached_good _ Rb))
    as (t & J & Gt & Ct & _); [lia|intros X; rewrite X in Mk; now elim Mk|discriminate|].
  exists a, (RazTree (Count 1) (Some (leaf_of [e']))), t.
  assert (Nt : n_elts (contents t) = (usize_mod + 1)%N).
  { rewrite Ct, n_elts_app, n_elts_mark, Na. reflexivity. }
  split; [exact Ra|]. split; [exact Rb|]. split.
  { apply (TR_join false E count _ a 65%N None (RazTree (Count 1) (Some (leaf_of [e']))) t Ra Rb); [lia| |exact J].
    intros _. split; [exact La|simpl; lia]. }
  split; [exact J|]. split; [exact Mk|]. split; [rewrite Na; reflexivity|]. split; [reflexivity|].
  split; [exact Nt|].
  assert (Mt : marks (contents t) <> []).
  { rewrite Ct. intros X. apply (f_equal (@length _)) in X. rewrite marks_app, app_length in X. simpl in X. lia. }
  pose proof (count_fits t Gt Mt) as C. rewrite Nt in C. destruct (rt_meta t). simpl in C. now rewrite C.
Qed.

End Wrap.
