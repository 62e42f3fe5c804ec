(** * Raz proofs, part 6: converting archive stacks to trees. *)

From Verif Require Import Base BaseFacts Spec SpecRaz StackModel AStackModel StackProofs
  LevelTreeModel TreeCursorModel RazMetaModel RazModel TreeSpec TreeProofs CursorProofs RazView
  RazProofs RazUnfocus RazFocus RazOps.

Section From.
Context {E M : Type} {RM : RazMeta E M}.
Notation rtree := (tree (tree_data E M)).
Notation atoms := (list (atom E level)).
Notation branch_of lv nm ml mr tl tr := (Node lv nm (Branch ml mr) (Some tl) (Some tr)).

(** The archive point that leads to the rest [s] of a stack. *)
Definition opening (lev : option level) (nm : option name) (s : astack E level) : atoms :=
  match lev with None => [] | Some l => Mark l nm :: as_abs s end.
Definition levels_in (P : level -> Prop) (l : atoms) : Prop := Forall (fun p => P (fst p)) (marks l).
Definition n_marks (l : atoms) : nat := length (marks l).

Lemma n_marks_vatoms (v : list E) (l : atoms) : n_marks (vatoms v ++ l) = n_marks l.
Proof. unfold n_marks. now rewrite marks_app, vatoms_eq, marks_map_Elt. Qed.

Lemma archives_marks (s : astack E level) : archives s = n_marks (as_abs s).
Proof.
  unfold archives, as_abs. rewrite n_marks_vatoms. destruct (archived s) as [h|]; [|reflexivity]. cbn [stabs].
  revert h. fix IH 1. intros [nm p [h|]]; cbn [head_len habs].
  - change (S (head_len h) = S (n_marks (vatoms (snd p) ++ habs h))). now rewrite IH, n_marks_vatoms.
  - change (1 = S (n_marks (vatoms (snd p) ++ []))). now rewrite n_marks_vatoms.
Qed.

Lemma next_vec (s : astack E level) : as_inv s -> as_is_empty s = false ->
  exists lev s', as_next_archive s = Ok (Some (current s, lev), s') /\ as_inv s' /\
    as_abs s = map Elt (rev (current s)) ++ opening lev (as_name s) s' /\
    match lev with
    | None => s' = as_new
    | Some _ => current s' <> [] /\ n_marks (as_abs s) = S (n_marks (as_abs s'))
    end.
Proof.
  destruct s as [cur ar]. unfold as_inv. simpl. intros I Ne. unfold as_next_archive. rewrite Ne. simpl.
  destruct ar as [[nm [m v] n]|]; simpl in *.
  - do 2 eexists. split; [reflexivity|]. destruct I as [Hv I]. split; [exact I|]. split.
    + unfold as_abs. simpl. now rewrite vatoms_eq.
    + split; [exact Hv|]. unfold as_abs. rewrite !n_marks_vatoms. simpl.
      change (S (n_marks (vatoms v ++ match n with None => [] | Some h' => habs h' end)) = S (n_marks (stabs n))).
      now rewrite n_marks_vatoms.
  - do 2 eexists. split; [reflexivity|]. split; [exact I|]. split; [|reflexivity].
    unfold as_abs. simpl. now rewrite app_nil_r, vatoms_eq, app_nil_r.
Qed.

Lemma levels_in_app P (a b : atoms) : levels_in P (a ++ b) <-> levels_in P a /\ levels_in P b.
Proof. unfold levels_in. rewrite marks_app. apply Forall_app. Qed.
Lemma levels_in_opening P lv nm s : levels_in P (opening (Some lv) nm s) <-> P lv /\ levels_in P (as_abs s).
Proof.
  unfold levels_in. simpl. split; intros H.
  - inversion H; auto.
  - destruct H. constructor; auto.
Qed.
Lemma levels_in_Elt P v : levels_in P (map (@Elt E level) v).
Proof. unfold levels_in. rewrite marks_map_Elt. constructor. Qed.

Lemma leaf_none v : @leaf E M v None = Ok (leaf_of v).
Proof. apply leaf_eq. Qed.

Lemma leaf_tree_ok (v : list E) : v <> [] -> tree_ok (@leaf_of E M v).
Proof. apply tree_ok_leaf. Qed.

Lemma branch_atoms lv nm (ml mr : M) (tl tr : rtree) :
  tree_atoms (Some (branch_of lv nm ml mr tl tr)) =
  tree_atoms (Some tl) ++ Mark lv nm :: tree_atoms (Some tr).
Proof. apply tree_atoms_branch. Qed.

(** Leaves without children, other nodes with two. *)
Fixpoint binary (t : rtree) : Prop :=
  match t with
  | Node _ _ d l r =>
      match d, l, r with
      | Dummy, _, _ => False
      | Leaf _, None, None => True
      | Branch _ _, Some t1, Some t2 => binary t1 /\ binary t2
      | _, _, _ => False
      end
  end.
Definition has_empty (t : rtree) : Prop := In (Leaf []) (map snd (inorder t)).

Lemma binary_solid (t : rtree) : binary t -> t_peek t <> Dummy.
Proof. destruct t as [lv nm [| |] l r]; simpl; [contradiction|discriminate|discriminate]. Qed.
Lemma has_empty_branch lv nm ml mr (tl tr : rtree) :
  has_empty (branch_of lv nm ml mr tl tr) <-> has_empty tl \/ has_empty tr.
Proof.
  unfold has_empty. rewrite inorder_Node, map_app, in_app_iff. simpl. intuition congruence.
Qed.

(** ** Tail *)
Definition good_tree (t : rtree) : Prop := tree_ok t /\ conventional t.
Notation pos := (fun l => 1 <= l)%N.

Lemma good_branch lv nm ml mr (tl tr : rtree) : (1 <= lv)%N -> good_tree tl -> good_tree tr ->
  branch_meta lv nm (Some (t_peek tl)) = Ok ml -> branch_meta lv nm (Some (t_peek tr)) = Ok mr ->
  (t_level tl < lv)%N -> (t_level tr <= lv)%N -> good_tree (branch_of lv nm ml mr tl tr).
Proof.
  intros Lv [Kl Cl] [Kr Cr] Ml Mr L1 L2. split; [now apply branch_ok|]. simpl. auto.
Qed.

(** What a call hands back: [whole] is everything it was responsible for. *)
Record tail_result (s2 : astack E level) (fl : option level) (fn : option name) (t : rtree)
    (whole : atoms) (max : level) (ok emp : Prop) : Prop := {
  tr_inv : as_inv s2;
  tr_atoms : rev (opening fl fn s2) ++ tree_atoms (Some t) = whole;
  tr_binary : binary t;
  tr_level : (t_level t < max)%N;
  tr_next : match fl with
            | None => s2 = as_new /\ fn = None
            | Some l => (max <= l)%N /\ current s2 <> []
            end;
  tr_good : ok -> good_tree t;
  tr_empty : emp -> has_empty t
}.

Lemma tail_from_stack_ok fuel : forall s first_level first_name accum max_level,
  n_marks (as_abs s) < fuel -> as_inv s -> current s <> [] -> binary accum ->
  (t_level accum <= first_level)%N -> (first_level < max_level)%N ->
  exists s2 fl fn t,
    tail_from_stack fuel s first_level first_name accum max_level = Ok (s2, fl, fn, t) /\
    n_marks (as_abs s2) <= n_marks (as_abs s) /\
    tail_result s2 fl fn t (rev (Mark first_level first_name :: as_abs s) ++ tree_atoms (Some accum)) max_level
      (good_tree accum /\ levels_in pos (Mark first_level first_name :: as_abs s)) (has_empty accum).
Proof.
  induction fuel as [|fuel IH]; intros s fl0 fn0 accum mx Hf I Cs Sa L1 L2; [lia|].
  cbn [tail_from_stack].
  assert (X1 : (t_level accum <=? fl0)%N = true) by now apply N.leb_le.
  assert (X2 : (fl0 <? mx)%N = true) by now apply N.ltb_lt.
  rewrite X1, X2. cbn [assert bind].
  destruct (next_vec s I (not_empty_current _ Cs)) as (lev & s' & Nx & I' & Ab & Nl).
  rewrite Nx. cbn [bind unwrap]. rewrite leaf_none. cbn [bind].
  set (lt := leaf_of (current s) : rtree).
  assert (GL : good_tree lt).
  { split; [apply leaf_tree_ok, Cs|simpl; auto]. }
  assert (AL : tree_atoms (Some lt) = map Elt (current s)) by apply tree_atoms_leaf.
  (* the small tree *)
  set (small := match lev with
        | None => Ok (as_new, None, None, lt)
        | Some l => if (l <? fl0)%N
            then tail_from_stack fuel s' l (as_name s) lt fl0
            else Ok (s', Some l, as_name s, lt)
        end).
  assert (SM : exists s2 fl fn t, small = Ok (s2, fl, fn, t) /\
     (fl = None -> n_marks (as_abs s2) = 0) /\ (fl <> None -> n_marks (as_abs s2) < n_marks (as_abs s)) /\
     as_inv s2 /\ rev (opening fl fn s2) ++ tree_atoms (Some t) = rev (as_abs s) /\
     binary t /\
     match fl with
     | None => s2 = as_new /\ fn = None
     | Some l => (fl0 <= l)%N /\ current s2 <> []
     end /\
     ((1 <= fl0)%N -> (t_level t < fl0)%N) /\
     (levels_in pos (as_abs s) -> good_tree t)).
  { subst small. destruct lev as [l|].
    - destruct Nl as [Cs' Nm]. destruct (l <? fl0)%N eqn:LT.
      + apply N.ltb_lt in LT.
        destruct (IH s' l (as_name s) lt fl0) as (s2 & fl & fn & t & -> & Nm2 & R); auto; try lia; [exact Logic.I|simpl; lia|].
        do 4 eexists. split; [reflexivity|]. destruct R as [R1 R2 R3 R4 R5 R6 R7].
        split; [intros ->; destruct R5 as [-> _]; reflexivity|]. split; [lia|].
        split; [exact R1|]. split; [|split; [exact R3|split; [exact R5|split; [auto|]]]].
        * rewrite R2, AL, Ab, rev_app_distr, map_rev, rev_involutive. reflexivity.
        * intros P. apply R6. rewrite Ab in P. apply levels_in_app in P. destruct P as [_ P]. auto.
      + apply N.ltb_ge in LT. do 4 eexists. split; [reflexivity|]. split; [discriminate|]. split; [lia|].
        split; [exact I'|]. split; [|split; [exact Logic.I|split; [auto|split; [simpl; lia|auto]]]].
        rewrite AL, Ab, rev_app_distr, map_rev, rev_involutive. reflexivity.
    - do 4 eexists. split; [reflexivity|]. split; [reflexivity|]. split; [congruence|].
      split; [exact Logic.I|]. split; [|split; [exact Logic.I|split; [auto|split; [simpl; lia|auto]]]].
      rewrite AL, Ab. simpl. rewrite app_nil_r, map_rev, rev_involutive. reflexivity. }
  destruct SM as (s2 & fl & fn & t & -> & Z0 & Z1 & I2 & A2 & S2 & N2 & Lt2 & G2). cbn [bind].
  destruct (bin_ok t accum fl0 fn0 (binary_solid _ S2) (binary_solid _ Sa)) as (ml & mr & -> & Ml & Mr). cbn [bind].
  assert (GB : good_tree accum /\ levels_in pos (Mark fl0 fn0 :: as_abs s) ->
    good_tree (branch_of fl0 fn0 ml mr t accum)).
  { intros [Ga P]. unfold levels_in in P. simpl in P. inversion P as [|? ? P1 P2]; subst. simpl in P1.
    apply good_branch; auto. }
  destruct fl as [l|].
  - destruct N2 as [N2 C2]. destruct (l <? mx)%N eqn:LT.
    + apply N.ltb_lt in LT.
      destruct (IH s2 l fn (branch_of fl0 fn0 ml mr t accum) mx) as (s3 & fl3 & fn3 & t3 & E3 & N3 & R); auto.
      { specialize (Z1 ltac:(discriminate)). lia. }
      { split; assumption. }
      rewrite E3. do 4 eexists. split; [reflexivity|].
      specialize (Z1 ltac:(discriminate)). split; [lia|].
      destruct R as [R1 R2 R3 R4 R5 R6 R7]. split; auto.
      * rewrite R2, branch_atoms. change (rev (opening (Some l) fn s2) ++ tree_atoms (Some t) = rev (as_abs s)) in A2.
        change (Mark l fn :: as_abs s2) with (opening (Some l) fn s2).
        rewrite app_assoc. etransitivity; [exact (f_equal (fun l => l ++ _) A2)|].
        cbn [rev]. rewrite <- app_assoc. reflexivity.
      * intros H. apply R6. split; [auto|]. destruct H as [_ P].
        assert (Q : levels_in pos (rev (opening (Some l) fn s2) ++ tree_atoms (Some t))).
        { rewrite A2. unfold levels_in in *. rewrite marks_rev. apply Forall_rev. now inversion P. }
        apply levels_in_app in Q. destruct Q as [Q _]. unfold levels_in in *. rewrite marks_rev in Q.
        apply Forall_rev in Q. rewrite rev_involutive in Q. exact Q.
      * intros H. apply R7. apply has_empty_branch. auto.
    + apply N.ltb_ge in LT. do 4 eexists. split; [reflexivity|].
      specialize (Z1 ltac:(discriminate)). split; [lia|].
      split; auto; [|split; assumption|intros H; apply has_empty_branch; auto].
      rewrite branch_atoms, app_assoc, A2. simpl rev. rewrite <- app_assoc. reflexivity.
  - destruct N2 as [-> ->]. do 4 eexists. split; [reflexivity|]. split; [specialize (Z0 eq_refl); lia|].
    split; auto; [|split; assumption|intros H; apply has_empty_branch; auto].
    rewrite branch_atoms. simpl in A2. simpl. rewrite A2, <- app_assoc. reflexivity.
Qed.

Lemma canonical_mk m (t : rtree) : good_tree t -> treetop_meta (Some t) = Ok m -> canonical (RazTree m (Some t)).
Proof. intros [O C] Mt. split; [split|]; assumption. Qed.

Theorem from_at_tail_ok (s : astack E level) : as_inv s -> levels_in (fun l => l < u32_max)%N (as_abs s) ->
  exists t, from_at_tail s = Ok t /\
    contents t = rev (as_abs s) /\
    (levels_in pos (as_abs s) -> (current s <> [] \/ as_abs s = []) -> canonical t) /\
    match rt_tree t with
    | None => as_abs s = []
    | Some tr => binary tr /\ (current s = [] -> has_empty tr)
    end.
Proof.
  intros I Lm. unfold from_at_tail. destruct (as_is_empty s) eqn:Em.
  - rewrite (next_archive_empty s Em). cbn [bind]. eexists. split; [reflexivity|].
    rewrite as_is_empty_abs in Em. destruct (as_abs s) eqn:Ab; [|discriminate].
    split; [reflexivity|]. split; [|reflexivity]. intros _ _. split; [split|]; simpl; auto.
  - destruct (next_vec s I Em) as (lev & s' & -> & I' & Ab & Nl). cbn [bind].
    assert (GL : current s <> [] -> good_tree (leaf_of (current s))).
    { intros H. split; [apply leaf_tree_ok, H|simpl; auto]. }
    destruct lev as [l|].
    + rewrite leaf_none. cbn [bind]. destruct Nl as [Cs' Nm].
      destruct (tail_from_stack_ok (S (S (archives s))) s' l (as_name s)
        (leaf_of (current s)) u32_max) as (s2 & fl & fn & t & -> & _ & R); auto.
      { rewrite archives_marks. lia. }
      { exact Logic.I. }
      { simpl. lia. }
      { rewrite Ab in Lm. apply levels_in_app in Lm. destruct Lm as [_ Lm]. now inversion Lm. }
      destruct R as [R1 R2 R3 R4 R5 R6 R7]. cbn [bind].
      assert (F : fl = None).
      { destruct fl as [l2|]; [|reflexivity]. destruct R5 as [R5 _]. exfalso.
        assert (Q : levels_in (fun l => l < u32_max)%N (rev (opening (Some l2) fn s2) ++ tree_atoms (Some t))).
        { rewrite R2. apply levels_in_app. split; [|rewrite tree_atoms_leaf; apply levels_in_Elt].
          rewrite Ab in Lm. apply levels_in_app in Lm. destruct Lm as [_ Lm].
          unfold levels_in in *. rewrite marks_rev. apply Forall_rev. exact Lm. }
        apply levels_in_app in Q. destruct Q as [Q _]. simpl in Q. apply levels_in_app in Q.
        destruct Q as [_ Q]. inversion Q as [|? ? Q1 _]; subst. simpl in Q1. lia. }
      subst fl. destruct R5 as [-> ->]. cbn [assert bind as_is_empty as_new current archived stack_is_empty].
      simpl as_is_empty. cbn [assert bind].
      destruct (mk_solid t (binary_solid _ R3)) as (m & -> & Mt). eexists. split; [reflexivity|].
      split; [|split].
      * unfold contents. cbn [rt_tree]. simpl in R2. change (tree_atoms (Some t) = rev (as_abs s)).
        simpl in R2. rewrite R2, tree_atoms_leaf, Ab, rev_app_distr, map_rev, rev_involutive. reflexivity.
      * intros P C. apply canonical_mk; auto. apply R6. split.
        -- destruct C as [C|C]; [auto|]. exfalso. rewrite as_is_empty_abs, C in Em. discriminate.
        -- rewrite Ab in P. apply levels_in_app in P. apply P.
      * split; [exact R3|]. intros C. apply R7. rewrite C. left. reflexivity.
    + rewrite leaf_none. cbn [bind].
      destruct (mk_solid (leaf_of (current s))) as (m & -> & Mt); [discriminate|].
      assert (Cs : current s <> []).
      { intros C. rewrite C in Ab. simpl in Ab. rewrite as_is_empty_abs, Ab in Em. discriminate. }
      eexists. split; [reflexivity|]. split; [|split].
      * unfold contents. cbn [rt_tree]. rewrite tree_atoms_leaf, Ab. simpl. now rewrite app_nil_r, map_rev, rev_involutive.
      * intros _ _. apply canonical_mk; auto.
      * split; [exact Logic.I|]. congruence.
Qed.

(** ** Head *)
Record head_result (s2 : astack E level) (fl : option level) (fn : option name) (t : rtree)
    (whole : atoms) (max : level) (ok emp : Prop) : Prop := {
  hr_inv : as_inv s2;
  hr_atoms : tree_atoms (Some t) ++ opening fl fn s2 = whole;
  hr_binary : binary t;
  hr_level : (t_level t <= max)%N;
  hr_next : match fl with
            | None => s2 = as_new /\ fn = None
            | Some l => (max < l)%N /\ current s2 <> []
            end;
  hr_good : ok -> good_tree t;
  hr_empty : emp -> has_empty t
}.

Lemma head_from_stack_ok fuel : forall s first_level first_name accum max_level,
  n_marks (as_abs s) < fuel -> as_inv s -> current s <> [] -> binary accum ->
  (t_level accum < first_level)%N -> (first_level <= max_level)%N ->
  levels_in pos (Mark first_level first_name :: as_abs s) ->
  exists s2 fl fn t,
    head_from_stack fuel s first_level first_name accum max_level = Ok (s2, fl, fn, t) /\
    n_marks (as_abs s2) <= n_marks (as_abs s) /\
    head_result s2 fl fn t (tree_atoms (Some accum) ++ Mark first_level first_name :: as_abs s) max_level
      (good_tree accum) (has_empty accum).
Proof.
  induction fuel as [|fuel IH]; intros s fl0 fn0 accum mx Hf I Cs Sa L1 L2 Ps; [lia|].
  cbn [head_from_stack].
  assert (X1 : (t_level accum <? fl0)%N = true) by now apply N.ltb_lt.
  assert (X2 : (fl0 <=? mx)%N = true) by now apply N.leb_le.
  rewrite X1, X2. cbn [assert bind].
  destruct (next_vec s I (not_empty_current _ Cs)) as (lev & s' & Nx & I' & Ab & Nl).
  rewrite Nx. cbn [bind unwrap]. rewrite leaf_none. cbn [bind].
  set (lt := leaf_of (rev (current s)) : rtree).
  assert (GL : good_tree lt).
  { split; [apply leaf_tree_ok; intros C; apply Cs; rewrite <- (rev_involutive (current s)), C; reflexivity|simpl; auto]. }
  assert (AL : tree_atoms (Some lt) = map Elt (rev (current s))) by apply tree_atoms_leaf.
  assert (P2 : levels_in pos (as_abs s)) by now inversion Ps.
  assert (P1 : (1 <= fl0)%N) by now inversion Ps.
  set (small := match lev with
        | None => Ok (as_new, None, None, lt)
        | Some l => if (l <=? fl0)%N
            then head_from_stack fuel s' l (as_name s) lt fl0
            else Ok (s', Some l, as_name s, lt)
        end).
  assert (SM : exists s2 fl fn t, small = Ok (s2, fl, fn, t) /\
     (fl = None -> n_marks (as_abs s2) = 0) /\ (fl <> None -> n_marks (as_abs s2) < n_marks (as_abs s)) /\
     as_inv s2 /\ tree_atoms (Some t) ++ opening fl fn s2 = as_abs s /\
     binary t /\
     match fl with
     | None => s2 = as_new /\ fn = None
     | Some l => (fl0 < l)%N /\ current s2 <> []
     end /\
     (t_level t <= fl0)%N /\ good_tree t).
  { subst small. destruct lev as [l|].
    - destruct Nl as [Cs' Nm]. rewrite Ab in P2. apply levels_in_app in P2. destruct P2 as [_ P2].
      destruct (l <=? fl0)%N eqn:LT.
      + apply N.leb_le in LT.
        destruct (IH s' l (as_name s) lt fl0) as (s2 & fl & fn & t & -> & Nm2 & R); auto; try lia.
        { exact Logic.I. }
        { simpl. assert (1 <= l)%N by now inversion P2. lia. }
        do 4 eexists. split; [reflexivity|]. destruct R as [R1 R2 R3 R4 R5 R6 R7].
        split; [intros ->; destruct R5 as [-> _]; reflexivity|]. split; [lia|].
        split; [exact R1|]. split; [|split; [exact R3|split; [exact R5|split; auto]]].
        rewrite R2, AL, Ab. reflexivity.
      + apply N.leb_gt in LT. do 4 eexists. split; [reflexivity|]. split; [discriminate|]. split; [lia|].
        split; [exact I'|]. split; [|split; [exact Logic.I|split; [auto|split; [simpl; lia|auto]]]].
        rewrite AL, Ab. reflexivity.
    - do 4 eexists. split; [reflexivity|]. split; [reflexivity|]. split; [congruence|].
      split; [exact Logic.I|]. split; [|split; [exact Logic.I|split; [auto|split; [simpl; lia|auto]]]].
      rewrite AL, Ab. reflexivity. }
  destruct SM as (s2 & fl & fn & t & -> & Z0 & Z1 & I2 & A2 & S2 & N2 & Lt2 & G2). cbn [bind].
  destruct (bin_ok accum t fl0 fn0 (binary_solid _ Sa) (binary_solid _ S2)) as (ml & mr & -> & Ml & Mr). cbn [bind].
  assert (GB : good_tree accum -> good_tree (branch_of fl0 fn0 ml mr accum t)).
  { intros Ga. apply good_branch; auto. }
  destruct fl as [l|].
  - destruct N2 as [N2 C2].
    assert (P3 : levels_in pos (Mark l fn :: as_abs s2)).
    { change (Mark l fn :: as_abs s2) with (opening (Some l) fn s2). rewrite <- A2 in P2.
      apply levels_in_app in P2. apply P2. }
    destruct (l <=? mx)%N eqn:LT.
    + apply N.leb_le in LT.
      destruct (IH s2 l fn (branch_of fl0 fn0 ml mr accum t) mx) as (s3 & fl3 & fn3 & t3 & E3 & N3 & R); auto.
      { specialize (Z1 ltac:(discriminate)). lia. }
      { split; assumption. }
      rewrite E3. do 4 eexists. split; [reflexivity|].
      specialize (Z1 ltac:(discriminate)). split; [lia|].
      destruct R as [R1 R2 R3 R4 R5 R6 R7]. split; auto.
      * rewrite R2, branch_atoms, <- app_assoc. cbn [app]. do 2 f_equal. exact A2.
      * intros H. apply R7. apply has_empty_branch. auto.
    + apply N.leb_gt in LT. do 4 eexists. split; [reflexivity|].
      specialize (Z1 ltac:(discriminate)). split; [lia|].
      split; auto; [|split; assumption|intros H; apply has_empty_branch; auto].
      rewrite branch_atoms, <- app_assoc. cbn [app]. do 2 f_equal. exact A2.
  - destruct N2 as [-> ->]. do 4 eexists. split; [reflexivity|]. split; [specialize (Z0 eq_refl); lia|].
    split; auto; [|split; assumption|intros H; apply has_empty_branch; auto].
    rewrite branch_atoms, <- app_assoc. cbn [app]. do 2 f_equal. exact A2.
Qed.

Theorem from_at_head_ok (s : astack E level) : as_inv s ->
  levels_in (fun l => 1 <= l <= u32_max)%N (as_abs s) ->
  exists t, from_at_head s = Ok t /\
    contents t = as_abs s /\
    ((current s <> [] \/ as_abs s = []) -> canonical t) /\
    match rt_tree t with
    | None => as_abs s = []
    | Some tr => binary tr /\ (current s = [] -> has_empty tr)
    end.
Proof.
  intros I Lm. unfold from_at_head. destruct (as_is_empty s) eqn:Em.
  - rewrite (next_archive_empty s Em). cbn [bind]. eexists. split; [reflexivity|].
    rewrite as_is_empty_abs in Em. destruct (as_abs s) eqn:Ab; [|discriminate].
    split; [reflexivity|]. split; [|reflexivity]. intros _. split; [split|]; simpl; auto.
  - destruct (next_vec s I Em) as (lev & s' & -> & I' & Ab & Nl). cbn [bind].
    assert (GL : current s <> [] -> good_tree (leaf_of (rev (current s)))).
    { intros H. split; [apply leaf_tree_ok; intros C; apply H; rewrite <- (rev_involutive (current s)), C; reflexivity|simpl; auto]. }
    destruct lev as [l|].
    + rewrite leaf_none. cbn [bind]. destruct Nl as [Cs' Nm].
      rewrite Ab in Lm. apply levels_in_app in Lm. destruct Lm as [_ Lm].
      assert (Ll : (1 <= l <= u32_max)%N) by now inversion Lm.
      destruct (head_from_stack_ok (S (S (archives s))) s' l (as_name s)
        (leaf_of (rev (current s))) u32_max) as (s2 & fl & fn & t & -> & _ & R); auto.
      { rewrite archives_marks. lia. }
      { exact Logic.I. }
      { simpl. lia. }
      { lia. }
      { eapply Forall_impl; [|exact Lm]. simpl. intros; lia. }
      destruct R as [R1 R2 R3 R4 R5 R6 R7]. cbn [bind].
      assert (F : fl = None).
      { destruct fl as [l2|]; [|reflexivity]. destruct R5 as [R5 _]. exfalso.
        assert (Q : levels_in (fun l => 1 <= l <= u32_max)%N (tree_atoms (Some t) ++ opening (Some l2) fn s2)).
        { rewrite R2. apply levels_in_app. split; [rewrite tree_atoms_leaf; apply levels_in_Elt|exact Lm]. }
        apply levels_in_app in Q. destruct Q as [_ Q].
        inversion Q as [|? ? Q1 _]; subst. simpl in Q1. lia. }
      subst fl. destruct R5 as [-> ->]. cbn [assert bind].
      simpl as_is_empty. cbn [assert bind].
      destruct (mk_solid t (binary_solid _ R3)) as (m & -> & Mt). eexists. split; [reflexivity|].
      split; [|split].
      * unfold contents. cbn [rt_tree]. simpl opening in R2. rewrite app_nil_r in R2.
        rewrite R2, tree_atoms_leaf, Ab. reflexivity.
      * intros C. apply canonical_mk; auto. apply R6.
        destruct C as [C|C]; [auto|]. exfalso. rewrite as_is_empty_abs, C in Em. discriminate.
      * split; [exact R3|]. intros C. apply R7. rewrite C. left. reflexivity.
    + rewrite leaf_none. cbn [bind].
      destruct (mk_solid (leaf_of (rev (current s)))) as (m & -> & Mt); [discriminate|].
      assert (Cs : current s <> []).
      { intros C. rewrite C in Ab. simpl in Ab. rewrite as_is_empty_abs, Ab in Em. discriminate. }
      eexists. split; [reflexivity|]. split; [|split].
      * unfold contents. cbn [rt_tree]. rewrite tree_atoms_leaf, Ab. simpl. now rewrite app_nil_r.
      * intros _. apply canonical_mk; auto.
      * split; [exact Logic.I|]. congruence.
Qed.

(** ** Empty leaves make fold_up panic *)
Lemma fold_up_empty_leaf {R} (init : E -> R) (bn : R -> R -> R) (tr : rtree) : binary tr ->
  let x := t_fold_up_meta (fun l c _ _ r =>
           match c with
           | Leaf v =>
               match map init v with
               | [] => Panic "leaf with empty vec"
               | first :: rest => Ok (fold_left bn rest first)
               end
           | _ =>
               match l, r with
               | None, None => Panic "branch with no data"
               | Some x, None => Ok x
               | None, Some x => Ok x
               | Some x1, Some x2 => Ok (bn x1 x2)
               end
           end) tr in
  (exists y, x = Ok y /\ ~ has_empty tr) \/ (x = Panic "leaf with empty vec" /\ has_empty tr).
Proof.
  induction tr as [lv nm d l r Hl Hr] using tree_induction. intros B. cbv zeta.
  destruct d as [|ml mr|v]; simpl in B; [contradiction| |].
  - destruct l as [tl|]; [|contradiction]. destruct r as [tr|]; [|contradiction]. destruct B as [Bl Br].
    cbn [optP] in Hl, Hr. cbn [t_fold_up_meta].
    destruct (Hl Bl) as [(y1 & -> & N1)|[-> H1]]; [|right; rewrite has_empty_branch; auto]. cbn [bind].
    destruct (Hr Br) as [(y2 & -> & N2)|[-> H2]]; [|right; rewrite has_empty_branch; auto]. cbn [bind]. left. eexists. split; [reflexivity|rewrite has_empty_branch; tauto].
  - destruct l as [tl|]; [contradiction|]. destruct r as [tr|]; [contradiction|]. cbn [t_fold_up_meta bind].
    unfold has_empty. simpl. destruct v as [|e v]; simpl; [right; auto|].
    left. eexists. split; [reflexivity|]. intuition discriminate.
Qed.

Theorem fold_up_panics {R} (init : E -> R) (bn : R -> R -> R) (t : raz_tree E M) tr :
  rt_tree t = Some tr -> binary tr -> has_empty tr ->
  rt_fold_up t init bn = Panic "leaf with empty vec".
Proof.
  intros T B H. unfold rt_fold_up, t_fold_up. rewrite T.
  destruct (fold_up_empty_leaf init bn tr B) as [(y & _ & N)|[X _]]; [contradiction|].
  cbv zeta in X. rewrite X. reflexivity.
Qed.

End From.
