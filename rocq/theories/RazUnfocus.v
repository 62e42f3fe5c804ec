(** * Raz proofs, part 2: unfocus. *)

From Verif Require Import Base BaseFacts Spec SpecRaz StackModel AStackModel StackProofs
  LevelTreeModel TreeCursorModel RazMetaModel RazModel TreeSpec TreeProofs CursorProofs RazView
  RazProofs.

Section Unfocus.
Context {E M : Type} {RM : RazMeta E M}.
Notation rtree := (tree (tree_data E M)).
Notation rcursor := (cursor (tree_data E M)).
Notation atoms := (list (atom E level)).
Notation W := (@node_ok E M RM).
Notation obs := (@item_atoms E M).
Notation cwf := (cwf W branchy present).
Notation corder := (@corder (tree_data E M)).
Notation cobs := (cobs obs).
Notation leaf_of := (@leaf_of E M).
Implicit Types (s : astack E level).

(** What is still to be joined after taking one vector from an archive stack. *)
Definition pending (lev : option level) (nm : option name) s : atoms :=
  match lev with Some l => Mark l nm :: map ren (as_abs s) | None => [] end.
Definition pend_ok (lev : option level) s : Prop :=
  stack_ok s /\
  match lev with None => as_is_empty s = true | Some l => (1 <= l)%N /\ current s <> [] end.
Definition vecs_left s : nat := if as_is_empty s then 0 else S (archives s).

Lemma vecs_left_archives s : vecs_left s < S (S (archives s)).
Proof. unfold vecs_left. destruct (as_is_empty s); lia. Qed.

Lemma not_empty_current s : current s <> [] -> as_is_empty s = false.
Proof. unfold as_is_empty. destruct (current s); [congruence|reflexivity]. Qed.

Lemma next_archive_empty s : as_is_empty s = true -> as_next_archive s = Ok (None, s).
Proof. intros H. unfold as_next_archive. now rewrite H. Qed.

Lemma next_archive_vec s : stack_ok s -> as_is_empty s = false ->
  exists lev s', as_next_archive s = Ok (Some (current s, lev), s') /\
    pend_ok lev s' /\ vecs_left s' < vecs_left s /\
    map ren (as_abs s) = map Elt (rev (current s)) ++ pending lev (tree_name (as_name s)) s'.
Proof.
  destruct s as [cur ar]. unfold stack_ok, marks_pos, as_inv. simpl. intros [I P] Ne.
  unfold as_next_archive, vecs_left. rewrite Ne. simpl.
  destruct ar as [[nm [m v] n]|]; simpl in *.
  - do 2 eexists. split; [reflexivity|]. destruct I as [Hv I]. split; [|split].
    + unfold as_abs in P. simpl in P. rewrite marks_app in P. apply Forall_app in P.
      destruct P as [_ P]. simpl in P. inversion P as [|? ? P1 P2]; subst.
      split; [split|split]; auto.
    + unfold as_is_empty, archives. simpl. destruct v; [congruence|]. simpl.
      destruct n; simpl; lia.
    + unfold as_abs. simpl. rewrite map_app, vatoms_eq, map_map. simpl. reflexivity.
  - do 2 eexists. split; [reflexivity|]. split; [|split].
    + split; [split|reflexivity]; [exact I|constructor].
    + simpl; lia.
    + unfold as_abs. simpl. rewrite !app_nil_r, vatoms_eq, map_map. reflexivity.
Qed.

(** Step 1, one side. *)
Lemma unfocus_side_spec s : stack_ok s ->
  exists nm lev o s', unfocus_side s = Ok (nm, lev, o, s') /\ pend_ok lev s' /\
    o <> Some [] /\
    map ren (as_abs s) =
      map Elt (rev (match o with Some v => v | None => [] end)) ++ pending lev nm s' /\
    (as_is_empty s = true -> o = None /\ lev = None).
Proof.
  intros K. unfold unfocus_side.
  destruct (as_is_empty s) eqn:Em.
  - rewrite next_archive_empty by exact Em. simpl.
    do 4 eexists. split; [reflexivity|]. split; [split; [exact K|exact Em]|].
    split; [discriminate|]. simpl. apply as_new_of_empty in Em. subst. auto.
  - destruct (next_archive_vec s K Em) as (lev & s' & R & P & _ & A). rewrite R. simpl.
    do 4 eexists. split; [reflexivity|]. split; [exact P|].
    split; [destruct (current s); discriminate|]. split; [|discriminate].
    rewrite A. destruct (current s); reflexivity.
Qed.

Lemma cobs_from_leaf v : cobs (c_from (leaf_of v)) = map Elt v.
Proof. rewrite cobs_from. apply tree_atoms_leaf. Qed.

Lemma cwf_leaf v : v <> [] -> cwf (c_from (leaf_of v)).
Proof. intros H. apply cwf_from; [apply raz_some|]. now apply tree_ok_leaf. Qed.

Lemma cwf_tree_ok t : tree_ok t -> cwf (c_from t).
Proof. intros H. apply cwf_from; [apply raz_some|exact H]. Qed.

Lemma corder_leaf v : corder (c_from (leaf_of v)).
Proof. apply corder_from. simpl. auto. Qed.

Lemma pend_some lev s : pend_ok lev s -> as_is_empty s = false ->
  exists l, lev = Some l /\ (1 <= l)%N /\ current s <> [].
Proof. intros [_ H] Em. destruct lev; [|congruence]. destruct H. eauto. Qed.

Lemma pend_none lev nm s : pend_ok lev s -> as_is_empty s = true -> lev = None /\ pending lev nm s = [].
Proof.
  intros [_ H] Em. destruct lev; [|auto]. destruct H as [_ H].
  apply not_empty_current in H. congruence.
Qed.

Lemma join_dummy lc lev nm rc : (1 <= lev)%N -> cwf lc -> cwf rc ->
  exists c, c_join lc lev nm Dummy rc = Ok c /\ cwf c /\
    cobs c = cobs lc ++ Mark lev nm :: cobs rc /\ (corder lc -> corder rc -> corder c).
Proof.
  intros Lv Cl Cr.
  destruct (c_join_spec lc lev nm Dummy rc) as (c & J & C & _ & O & K & _);
    [intros h; unfold inner; lia|split; [exact Lv|exact I]|exact Cl|exact Cr|].
  exists c. auto.
Qed.

Lemma left_loop_spec s lev nm c : pend_ok lev s -> cwf c ->
  exists c', unfocus_left_loop s lev nm c = Ok c' /\ cwf c' /\
    cobs c' = rev (pending lev nm s) ++ cobs c /\ (corder c -> corder c').
Proof.
  intros P C. unfold unfocus_left_loop.
  apply (loop_total
    (fun '(s', lev', nm', next_nm, c') =>
       pend_ok lev' s' /\ next_nm = tree_name (as_name s') /\ cwf c' /\
       rev (pending lev' nm' s') ++ cobs c' = rev (pending lev nm s) ++ cobs c /\
       (corder c -> corder c'))
    _ (fun '(s', _, _, _, _) => vecs_left s')); [|auto 8|apply vecs_left_archives].
  intros [[[[s1 lev1] nm1] nn1] c1] (P1 & N1 & C1 & O1 & K1).
  destruct (as_is_empty s1) eqn:Em.
  - rewrite next_archive_empty by exact Em. simpl.
    destruct (pend_none _ nm1 _ P1 Em) as (_ & Q). rewrite Q in O1.
    eexists. split; [reflexivity|]. cbv beta iota. simpl in O1. auto.
  - destruct (next_archive_vec s1 (proj1 P1) Em) as (lev2 & s2 & R & P2 & Lt & A).
    destruct (pend_some _ _ P1 Em) as (l & -> & Hl & Hc). rewrite R. simpl.
    destruct (join_dummy (c_from (leaf_of (current s1))) l nm1 c1 Hl) as (c2 & J & C2 & O2 & K2);
      [apply cwf_leaf, Hc|exact C1|].
    unfold RazProofs.leaf_of in J. rewrite J. simpl. eexists. split; [reflexivity|]. simpl.
    split; [|exact Lt]. split; [exact P2|]. split; [reflexivity|]. split; [exact C2|].
    split; [|intros; apply K2; auto using corder_leaf].
    rewrite O2, cobs_from_leaf, <- O1, N1. cbn [pending]. rewrite A. simpl.
    rewrite rev_app_distr, <- map_rev, rev_involutive, <- !app_assoc. reflexivity.
Qed.

Lemma right_loop_spec s lev nm c : pend_ok lev s -> cwf c ->
  exists c', unfocus_right_loop s lev nm c = Ok c' /\ cwf c' /\
    cobs c' = cobs c ++ pending lev nm s /\ (corder c -> corder c').
Proof.
  intros P C. unfold unfocus_right_loop.
  apply (loop_total
    (fun '(s', lev', nm', next_nm, c') =>
       pend_ok lev' s' /\ next_nm = tree_name (as_name s') /\ cwf c' /\
       cobs c' ++ pending lev' nm' s' = cobs c ++ pending lev nm s /\
       (corder c -> corder c'))
    _ (fun '(s', _, _, _, _) => vecs_left s')); [|auto 8|apply vecs_left_archives].
  intros [[[[s1 lev1] nm1] nn1] c1] (P1 & N1 & C1 & O1 & K1).
  destruct (as_is_empty s1) eqn:Em.
  - rewrite next_archive_empty by exact Em. simpl.
    destruct (pend_none _ nm1 _ P1 Em) as (_ & Q). rewrite Q, app_nil_r in O1.
    eexists. split; [reflexivity|]. cbv beta iota. simpl in O1. auto.
  - destruct (next_archive_vec s1 (proj1 P1) Em) as (lev2 & s2 & R & P2 & Lt & A).
    destruct (pend_some _ _ P1 Em) as (l & -> & Hl & Hc). rewrite R. simpl.
    destruct (join_dummy c1 l nm1 (c_from (leaf_of (rev (current s1)))) Hl C1) as (c2 & J & C2 & O2 & K2).
    { apply cwf_leaf. intros X. apply Hc. rewrite <- (rev_involutive (current s1)), X. reflexivity. }
    unfold RazProofs.leaf_of in J. rewrite J. simpl. eexists. split; [reflexivity|]. simpl.
    split; [|exact Lt]. split; [exact P2|]. split; [reflexivity|]. split; [exact C2|].
    split; [|intros; apply K2; auto using corder_leaf].
    rewrite O2, cobs_from_leaf, <- O1, N1. cbn [pending]. rewrite A.
    rewrite <- !app_assoc. reflexivity.
Qed.

(** Step 3 on either side. *)
Lemma step3_left lf jc : left_ok lf -> cwf jc ->
  exists jc', (do ' (u, lf) <- up lf;
     do jc <-
        (if up_failed u then Ok jc
         else
           do lev <- unwrap "unfocus: peek_level" (peek_level lf);
           let nm := peek_name lf in
           let (_, lf) := down_left_force ForceDiscard lf in
           c_join lf lev nm Dummy jc); Ok jc) = Ok jc' /\ cwf jc' /\
    cobs jc' = rev (left_atoms lf) ++ cobs jc /\
    (lf_ord (l_forest lf) -> corder jc -> corder jc').
Proof.
  intros K C. pose proof (left_up lf K) as U.
  destruct (l_forest lf) as [|[d ut] rest] eqn:L.
  - rewrite U. simpl. exists jc. unfold left_atoms. rewrite L. simpl. auto.
  - destruct U as (c' & t' & U & K' & Lf' & T' & Lv & Nm & Tl'). rewrite U. simpl.
    unfold peek_level, peek_name. rewrite T'. simpl.
    destruct (left_discard lf d ut rest K L) as (tl & Tl & Ktl & C1 & LA & Ord).
    unfold down_left_force. rewrite T', Tl', Tl. cbv beta iota zeta.
    rewrite Lf', (lo_r _ K'), Lv, Nm.
    assert (Lu : (1 <= t_level ut)%N).
    { pose proof (lo_l _ K) as F. rewrite L in F. inversion F as [|? ? [[Q _] _] _]. exact Q. }
    destruct (join_dummy _ (t_level ut) (t_name ut) jc Lu C1 C) as (j & J & Cj & Oj & Kj).
    rewrite J. simpl. exists j. split; [reflexivity|]. split; [exact Cj|]. split.
    + rewrite Oj, LA. simpl. rewrite rev_involutive, <- app_assoc. reflexivity.
    + intros O1 O2. apply Kj; [|exact O2]. apply Ord. rewrite L. simpl. rewrite Tl. exact O1.
Qed.

Lemma step3_right rf jc : right_ok rf -> cwf jc ->
  exists jc', (do ' (u, rf) <- up rf;
     do jc <-
        (if up_failed u then Ok jc
         else
           do lev <- unwrap "unfocus: peek_level" (peek_level rf);
           let nm := peek_name rf in
           let (_, rf) := down_right_force ForceDiscard rf in
           c_join jc lev nm Dummy rf); Ok jc) = Ok jc' /\ cwf jc' /\
    cobs jc' = cobs jc ++ right_atoms rf /\
    (rf_ord (r_forest rf) -> corder jc -> corder jc').
Proof.
  intros K C. pose proof (right_up rf K) as U.
  destruct (r_forest rf) as [|[d ut] rest] eqn:L.
  - rewrite U. simpl. exists jc. unfold right_atoms. rewrite L. simpl. rewrite app_nil_r. auto.
  - destruct U as (c' & t' & U & K' & Lf' & T' & Lv & Nm & Tl'). rewrite U. simpl.
    unfold peek_level, peek_name. rewrite T'. simpl.
    destruct (right_discard rf d ut rest K L) as (tl & Tl & Ktl & C1 & LA & Ord).
    unfold down_right_force. rewrite T', Tl', Tl. cbv beta iota zeta.
    rewrite Lf', (ro_l _ K'), Lv, Nm.
    assert (Lu : (1 <= t_level ut)%N).
    { pose proof (ro_r _ K) as F. rewrite L in F. inversion F as [|? ? [[Q _] _] _]. exact Q. }
    destruct (join_dummy jc (t_level ut) (t_name ut) _ Lu C C1) as (j & J & Cj & Oj & Kj).
    rewrite J. simpl. exists j. split; [reflexivity|]. split; [exact Cj|]. split.
    + rewrite Oj, LA. simpl. reflexivity.
    + intros O1 O2. apply Kj; [exact O2|]. apply Ord. rewrite L. simpl. rewrite Tl. exact O1.
Qed.

Lemma mk_good t : tree_ok t ->
  exists rt, mk_raz_tree (Some t) = Ok rt /\ good rt /\ rt_tree rt = Some t.
Proof.
  intros H. unfold mk_raz_tree.
  assert (X : exists m, treetop_meta (Some t) = Ok m).
  { apply tree_ok_case in H.
    destruct H as [(v & -> & Hv)|(? & ? & ? & ? & ? & ? & -> & _)]; simpl; eauto. }
  destruct X as (m & X). rewrite X. simpl. eexists. split; [reflexivity|]. split; [|reflexivity].
  split; [exact H|exact X].
Qed.

(** Steps 3 and 4 together. *)
Lemma steps34 lf rf tr : left_ok lf -> right_ok rf -> tree_ok tr ->
  exists t,
    (let jc := c_from tr in
      do ' (u, lf) <- up lf;
      do jc <-
        (if up_failed u then Ok jc
         else
           do lev <- unwrap "unfocus: peek_level" (peek_level lf);
           let nm := peek_name lf in
           let (_, lf) := down_left_force ForceDiscard lf in
           c_join lf lev nm Dummy jc);
      do ' (u, rf) <- up rf;
      do jc <-
        (if up_failed u then Ok jc
         else
           do lev <- unwrap "unfocus: peek_level" (peek_level rf);
           let nm := peek_name rf in
           let (_, rf) := down_right_force ForceDiscard rf in
           c_join jc lev nm Dummy rf);
      do jc <- up_all jc;
      mk_raz_tree (at_tree jc)) = Ok t /\ good t /\
    contents t = rev (left_atoms lf) ++ tree_atoms (Some tr) ++ right_atoms rf /\
    (lf_ord (l_forest lf) -> rf_ord (r_forest rf) -> conventional tr -> canonical t).
Proof.
  intros Kl Kr Kt. cbv zeta.
  destruct (step3_left lf (c_from tr) Kl (cwf_tree_ok _ Kt)) as (j1 & J1 & C1 & O1 & K1).
  destruct (up lf) as [[u lf1]| |]; simpl in J1 |- *; try discriminate.
  apply bind_Ok in J1. destruct J1 as (j1' & J1 & X). injection X as ->. rewrite J1. simpl.
  destruct (step3_right rf j1 Kr C1) as (j2 & J2 & C2 & O2 & K2).
  destruct (up rf) as [[u2 rf1]| |]; simpl in J2 |- *; try discriminate.
  apply bind_Ok in J2. destruct J2 as (j2' & J2 & X). injection X as ->. rewrite J2. simpl.
  destruct (up_all_spec j2 C2) as (j3 & U & C3 & L3 & R3 & O3 & K3 & T3). rewrite U. simpl.
  assert (Ok3 : otree_ok (c_tree j3)) by apply C3.
  destruct (c_tree j3) as [t3|] eqn:T; [|elim (cwf_allowed _ _ _ _ C3); exact T].
  destruct (mk_good t3 Ok3) as (rt & Mk & G & Rt). unfold at_tree. rewrite T, Mk.
  exists rt. split; [reflexivity|]. split; [exact G|]. split.
  - unfold contents, tree_atoms. rewrite Rt, <- T, <- (cobs_root obs _ L3 R3), O3, O2, O1, cobs_from.
    now rewrite <- app_assoc.
  - intros Ol Or Ot. split; [exact G|]. rewrite Rt, <- T. apply K3, K2; [exact Or|].
    apply K1; [exact Ol|]. now apply corder_from.
Qed.

(** Step 2 when there is a vector: the middle tree. *)
Lemma middle_spec v ls llev lnm rs rlev rnm : v <> [] -> pend_ok llev ls -> pend_ok rlev rs ->
  exists c t, (do t0 <- unwrap "unfocus: leaf" (tree_new 0%N None (Leaf v) None None);
        do c <- unfocus_left_loop ls llev lnm (c_from t0);
        do c <- unfocus_right_loop rs rlev rnm c; up_all c) = Ok c /\ at_tree c = Some t /\
    tree_ok t /\ conventional t /\
    tree_atoms (Some t) = rev (pending llev lnm ls) ++ map Elt v ++ pending rlev rnm rs.
Proof.
  intros Hv Pl Pr. rewrite tree_new_eq. simpl.
  change (Node 0%N None (Leaf v) None None) with (leaf_of v).
  destruct (left_loop_spec ls llev lnm (c_from (leaf_of v)) Pl) as (c1 & -> & C1 & O1 & K1);
    [now apply cwf_leaf|]. simpl.
  destruct (right_loop_spec rs rlev rnm c1 Pr C1) as (c2 & -> & C2 & O2 & K2). simpl.
  destruct (up_all_spec c2 C2) as (c3 & U & C3 & L3 & R3 & O3 & K3 & T3).
  assert (Ok3 : otree_ok (c_tree c3)) by apply C3.
  assert (K : corder c3) by auto using corder_leaf.
  destruct (c_tree c3) as [t3|] eqn:T; [|elim (cwf_allowed _ _ _ _ C3); exact T].
  exists c3, t3. split; [exact U|]. split; [exact T|]. split; [exact Ok3|]. split.
  - pose proof (co_tree _ K) as Z. rewrite T in Z. exact Z.
  - unfold tree_atoms. rewrite <- T, <- (cobs_root obs _ L3 R3), O3, O2, O1, cobs_from_leaf.
    now rewrite <- app_assoc.
Qed.

Lemma pending_empty_nonempty lev nm s : pend_ok lev s ->
  match lev with None => pending lev nm s = [] | Some l => exists e r, pending lev nm s = Mark l nm :: Elt e :: r end.
Proof.
  intros [K P]. destruct lev as [l|]; [|reflexivity]. destruct P as [_ Hc]. simpl.
  unfold as_abs. destruct (list_rev_case (current s)) as [H|(w & x & H)]; [congruence|].
  rewrite H, vatoms_snoc. simpl. eauto.
Qed.

Lemma sz_unfocus_left_elt (s : sraz E) x l : s_left s = Elt x :: l ->
  sz_unfocus s = rev (s_left s) ++ s_right s.
Proof. intros H. unfold sz_unfocus. rewrite H. destruct (s_right s) as [|[?|? ?] ?]; reflexivity. Qed.
Lemma sz_unfocus_right_elt (s : sraz E) x r : s_right s = Elt x :: r ->
  sz_unfocus s = rev (s_left s) ++ s_right s.
Proof. intros H. unfold sz_unfocus. rewrite H. destruct (s_left s) as [|[?|? ?] ?]; reflexivity. Qed.

Theorem unfocus_sim (z : raz E M) (s : sraz E) : sim z s ->
  exists t, unfocus z = Ok t /\ good t /\ contents t = sz_unfocus s /\ (ordered z -> canonical t).
Proof.
  intros [Hlc Hrc Hls Hrs HL HR HN HM]. unfold unfocus.
  destruct (unfocus_side_spec _ Hls) as (lnm & llev & lo & ls & El & Pl & Nl & Al & Eml).
  destruct (unfocus_side_spec _ Hrs) as (rnm & rlev & ro & rs & Er & Pr & Nr & Ar & Emr).
  rewrite El, Er. cbn [bind].
  assert (LS := left_atoms_shape _ Hlc). assert (RS := right_atoms_shape _ Hrc).
  (* the outcome of step 1 *)
  assert (S1 : exists vec lnm' llev' ls' rnm' rlev' rs',
    match as_is_empty ls, lo, ro, as_is_empty rs with
    | _, Some v, None, _ => Ok (Some v, lnm, llev, ls, rnm, rlev, rs)
    | _, None, Some v, _ => Ok (Some (rev v), lnm, llev, ls, rnm, rlev, rs)
    | _, Some lv, Some rv, _ => Ok (Some (lv ++ rev rv), lnm, llev, ls, rnm, rlev, rs)
    | false, None, None, _ =>
        let lnm := tree_name (as_name ls) in
        do ' (o, ls) <- as_next_archive ls;
        do ' (v, lev) <- unwrap "unfocus: next_archive" o;
        Ok (Some v, lnm, lev, ls, rnm, rlev, rs)
    | true, None, None, false =>
        let rnm := tree_name (as_name rs) in
        do ' (o, rs) <- as_next_archive rs;
        do ' (v, lev) <- unwrap "unfocus: next_archive" o;
        Ok (Some (rev v), lnm, llev, ls, rnm, lev, rs)
    | true, None, None, true => Ok (None, lnm, llev, ls, rnm, rlev, rs)
    end = Ok (vec, lnm', llev', ls', rnm', rlev', rs') /\
    match vec with
    | Some v => v <> [] /\ pend_ok llev' ls' /\ pend_ok rlev' rs' /\
        rev (left_atoms (z_l_forest z)) ++ (rev (pending llev' lnm' ls') ++ map Elt v ++ pending rlev' rnm' rs')
          ++ right_atoms (z_r_forest z) = sz_unfocus s
    | None => s_left s = left_atoms (z_l_forest z) /\ s_right s = right_atoms (z_r_forest z) /\
        s_lnew s = 0 /\ s_rnew s = 0
    end).
  { rewrite Al in HL. rewrite Ar in HR.
    assert (MNil : forall s', as_abs s' = [] -> length (marks (@as_abs E level s')) = 0)
      by (intros s' ->; reflexivity).
    destruct lo as [lv|], ro as [rv|].
    - (* elements on both sides *)
      assert (Hlv : lv <> []) by congruence. assert (Hrv : rv <> []) by congruence.
      do 7 eexists. split; [destruct (as_is_empty ls); reflexivity|].
      split; [destruct lv; [congruence|discriminate]|]. split; [exact Pl|]. split; [exact Pr|].
      destruct (list_rev_case lv) as [X|(lv' & x & X)]; [congruence|].
      erewrite sz_unfocus_left_elt by (rewrite HL, X, rev_app_distr; reflexivity).
      rewrite HL, HR. rewrite !rev_app_distr, <- map_rev, rev_involutive, map_app, <- !app_assoc.
      reflexivity.
    - (* left only *)
      assert (Hlv : lv <> []) by congruence.
      do 7 eexists. split; [destruct (as_is_empty ls); reflexivity|].
      split; [exact Hlv|]. split; [exact Pl|]. split; [exact Pr|].
      destruct (list_rev_case lv) as [X|(lv' & x & X)]; [congruence|].
      erewrite sz_unfocus_left_elt by (rewrite HL, X, rev_app_distr; reflexivity).
      rewrite HL, HR. rewrite !rev_app_distr, <- map_rev, rev_involutive, <- !app_assoc. reflexivity.
    - (* right only *)
      assert (Hrv : rv <> []) by congruence.
      do 7 eexists. split; [destruct (as_is_empty ls); reflexivity|].
      split; [intros X; apply Hrv; rewrite <- (rev_involutive rv), X; reflexivity|].
      split; [exact Pl|]. split; [exact Pr|].
      destruct (list_rev_case rv) as [X|(rv' & x & X)]; [congruence|].
      erewrite sz_unfocus_right_elt by (rewrite HR, X, rev_app_distr; reflexivity).
      rewrite HL, HR. simpl. rewrite !rev_app_distr, <- !app_assoc. reflexivity.
    - (* nothing at the cursor *)
      simpl in HL, HR, Al, Ar.
      pose proof (pending_empty_nonempty llev lnm ls Pl) as Sl.
      pose proof (pending_empty_nonempty rlev rnm rs Pr) as Sr.
      assert (RN : forall st, length (marks (map ren st)) = length (marks (st : atoms))).
      { induction st as [|[?|? ?] ? IH]; simpl; congruence. }
      destruct (as_is_empty ls) eqn:Els.
      + destruct (pend_none _ lnm _ Pl Els) as (-> & Ql). rewrite Ql in *.
        assert (LN : s_lnew s = 0) by (rewrite HN, <- RN, Al; reflexivity).
        destruct (as_is_empty rs) eqn:Ers.
        * destruct (pend_none _ rnm _ Pr Ers) as (-> & Qr). rewrite Qr in *.
          do 7 eexists. split; [reflexivity|]. simpl in *.
          repeat split; auto. rewrite HM, <- RN, Ar. reflexivity.
        * destruct (next_archive_vec rs (proj1 Pr) Ers) as (lev2 & s2 & R & P2 & _ & A2).
          destruct (pend_some _ _ Pr Ers) as (l & -> & Hl & Hc).
          do 7 eexists. split; [cbv zeta; rewrite R; reflexivity|].
          split; [intros X; apply Hc; rewrite <- (rev_involutive (current rs)), X; reflexivity|].
          split; [exact Pl|]. split; [exact P2|].
          assert (RNw : (0 <? s_rnew s) = true).
          { apply Nat.ltb_lt. rewrite HM, <- RN, Ar. simpl. lia. }
          unfold sz_unfocus. rewrite HL, HR, LN, RNw. rewrite Ql. cbn [pending rev app].
          rewrite A2, <- !app_assoc. cbn [Nat.eqb andb].
          destruct LS as [->|(m & n & x & ->)]; [reflexivity|].
          reflexivity.
      + destruct (next_archive_vec ls (proj1 Pl) Els) as (lev2 & s2 & R & P2 & _ & A2).
        destruct (pend_some _ _ Pl Els) as (l & -> & Hl & Hc).
        do 7 eexists. split; [cbv zeta; rewrite R; reflexivity|].
        split; [exact Hc|]. split; [exact P2|]. split; [exact Pr|].
        assert (LNw : (s_lnew s =? 0) = false).
        { apply Nat.eqb_neq. rewrite HN, <- RN, Al. simpl. lia. }
        unfold sz_unfocus. rewrite HL, HR, LNw. cbn [pending app andb]. rewrite A2.
        match goal with |- _ = ?rhs => assert (X : rhs = rev ((map Elt (rev (current ls)) ++ pending lev2 (tree_name (as_name ls)) s2) ++ left_atoms (z_l_forest z)) ++ pending rlev rnm rs ++ right_atoms (z_r_forest z)) end.
        { destruct (pending rlev rnm rs ++ right_atoms (z_r_forest z)) as [|[?|? ?] ?] eqn:Dp; [now rewrite app_nil_r| |reflexivity].
          destruct rlev; [destruct Sr as (? & ? & Sr); rewrite Sr in Dp; discriminate|].
          rewrite Sr in Dp. simpl in Dp.
          destruct RS as [RS|(? & ? & ? & RS)]; rewrite RS in Dp; discriminate. }
        rewrite X, !rev_app_distr, <- map_rev, rev_involutive, <- !app_assoc. reflexivity. }
  destruct S1 as (vec & lnm' & llev' & ls' & rnm' & rlev' & rs' & EQ & S1). cbn [bind] in EQ. rewrite EQ. clear EQ. cbn [bind].
  destruct vec as [v|].
  - destruct S1 as (Hv & Pl' & Pr' & Eq).
    destruct (middle_spec v ls' llev' lnm' rs' rlev' rnm' Hv Pl' Pr') as (c & t & Mid & T & Kt & Ct & At).
    apply bind_Ok in Mid. destruct Mid as (t0 & Q0 & Mid). rewrite Q0. cbn [bind].
    apply bind_Ok in Mid. destruct Mid as (c1 & Q1 & Mid). rewrite Q1. cbn [bind].
    apply bind_Ok in Mid. destruct Mid as (c2 & Q2 & Mid). rewrite Q2. cbn [bind].
    rewrite Mid. cbn [bind]. rewrite T. cbn [unwrap bind].
    destruct (steps34 (z_l_forest z) (z_r_forest z) t Hlc Hrc Kt) as (rt & St & G & Cn & Kn).
    cbv zeta in St. rewrite St. exists rt. split; [reflexivity|]. split; [exact G|]. split.
    + rewrite Cn, At. exact Eq.
    + intros [O1 O2]. auto.
  - destruct S1 as (SL & SR & LN & RN).
    pose proof (left_up _ Hlc) as Ul. destruct (l_forest (z_l_forest z)) as [|[d ut] lf] eqn:Lf.
    + rewrite Ul. cbn [bind up_failed].
      assert (LA : left_atoms (z_l_forest z) = []) by (unfold left_atoms; now rewrite Lf).
      pose proof (right_up _ Hrc) as Ur. destruct (r_forest (z_r_forest z)) as [|[d ut] rf] eqn:Rf.
      * rewrite Ur. cbn [bind up_failed].
        assert (RA : right_atoms (z_r_forest z) = []) by (unfold right_atoms; now rewrite Rf).
        eexists. split; [reflexivity|]. split; [split; [exact I|reflexivity]|]. split.
        -- unfold sz_unfocus. rewrite SL, SR, LA, RA. reflexivity.
        -- intros _. split; [split; [exact I|reflexivity]|exact I].
      * destruct Ur as (c' & t' & U & K' & Lf' & T' & Lv & Nm & Tl'). rewrite U. cbn [bind up_failed].
        destruct (right_discard _ d ut rf Hrc Rf) as (tr & Tr & Ktr & C1 & RA & Ord).
        unfold right_tree. rewrite T', Tl', Tr. cbn [unwrap bind].
        destruct (steps34 (z_l_forest z) c' tr Hlc K' Ktr) as (rt & St & G & Cn & Kn).
        cbv zeta in St. rewrite St. exists rt. split; [reflexivity|]. split; [exact G|]. split.
        -- unfold sz_unfocus. rewrite Cn, SL, SR, LA, RA. simpl. unfold CursorProofs.cobs. simpl.
           unfold right_atoms. now rewrite Lf'.
        -- intros [O1 O2]. destruct (Ord O2) as [[K1 K2 K3 K4 K5] _]. apply Kn; auto.
           rewrite Lf'. exact K3.
    + destruct Ul as (c' & t' & U & K' & Lf' & T' & Lv & Nm & Tl'). rewrite U. cbn [bind up_failed].
      destruct (left_discard _ d ut lf Hlc Lf) as (tl & Tl & Ktl & C1 & LA & Ord).
      unfold left_tree. rewrite T', Tl', Tl. cbn [unwrap bind].
      destruct (steps34 c' (z_r_forest z) tl K' Hrc Ktl) as (rt & St & G & Cn & Kn).
      cbv zeta in St. rewrite St. exists rt. split; [reflexivity|]. split; [exact G|]. split.
      * unfold sz_unfocus. rewrite Cn, SL, SR, LA, LN, RN.
        assert (X : rev (rev (cobs {| dirty := true; l_forest := lf; c_tree := Some tl; r_forest := [] |})) =
          rev (left_atoms c') ++ tree_atoms (Some tl)).
        { rewrite rev_involutive. unfold CursorProofs.cobs, left_atoms. simpl.
          rewrite app_nil_r, Lf', rev_involutive. reflexivity. }
        simpl Nat.eqb. simpl andb. cbv iota. rewrite X.
        destruct (right_atoms (z_r_forest z)) as [|[?|? ?] ?] eqn:D; rewrite <- ?app_assoc, ?app_nil_r; try reflexivity.
        destruct RS as [RS|(? & ? & ? & RS)]; discriminate.
      * intros [O1 O2]. destruct (Ord O1) as [[K1 K2 K3 K4 K5] _]. apply Kn; auto.
        rewrite Lf'. exact K2.
Qed.

End Unfocus.
