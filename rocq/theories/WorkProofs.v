(** * Moves made by the operations of a Raz. *)

From Verif Require Import Base BaseFacts Spec SpecRaz StackModel AStackModel StackProofs LevelTreeModel TreeCursorModel RazMetaModel
  RazModel TreeSpec TreeProofs CursorProofs RazView RazProofs RazUnfocus RazFocus RazScripts RazSession RazReach RazFacts MemoSpec PathSpec RazPath
  WorkModel WorkFacts WorkCursor.

Section Work.
Context {E M : Type} {RM : RazMeta E M}.
Notation rtree := (tree (tree_data E M)).
Notation rcursor := (cursor (tree_data E M)).
Notation atoms := (list (atom E level)).
Notation WN := (@node_ok E M RM).
Notation obs := (@item_atoms E M).
Notation cwf := (cwf WN branchy present).
Notation corder := (@corder (tree_data E M)).
Notation cobs := (cobs obs).
Notation leaf_of := (@leaf_of E M).
Implicit Types (s : astack E level).

Lemma pending_marks lev nm nm' s : length (marks (pending (E := E) lev nm s)) = length (marks (pending lev nm' s)).
Proof. now destruct lev. Qed.

Lemma marks_map_elt (v : list E) : marks (map (fun e => Elt e : atom E level) v) = [].
Proof. induction v; [reflexivity|exact IHv]. Qed.
Lemma next_archive_marks s l nm nm' lev2 s2 : map ren (as_abs s) = map Elt (rev (current s)) ++ pending lev2 nm' s2 ->
  length (marks (pending (Some l) nm s)) = S (length (marks (pending lev2 nm' s2))).
Proof. intros A. cbn [pending]. rewrite A. cbn [marks length]. now rewrite marks_app, marks_map_elt. Qed.

Lemma leaf_low lv v : flat_left lv (c_from (leaf_of v)) /\ flat_right lv (c_from (leaf_of v)).
Proof. split; exact I. Qed.
Lemma leaf_left lev v : (1 <= lev)%N -> hd_le lev (l_forest (c_from (leaf_of v))) /\ lev_lt (c_tree (c_from (leaf_of v))) lev.
Proof. intros L. split; [exact I|]. cbn. lia. Qed.
Lemma leaf_right lev v : (1 <= lev)%N -> hd_lt lev (r_forest (c_from (leaf_of v))) /\ lev_le (c_tree (c_from (leaf_of v))) lev.
Proof. intros L. split; [exact I|]. cbn. lia. Qed.

Lemma left_loop_moves s lev nm c n c' : pend_ok lev s -> cwf c -> l_forest c = [] -> flat_left 0%N c ->
  w_unfocus_left_loop s lev nm c = Ok (n, c') ->
  exists j, n + forest_len c' = forest_len c + 2 * j /\ j <= length (marks (pending lev nm s)).
Proof.
  intros P C L Fl H. unfold w_unfocus_left_loop in H.
  eapply (wloop_inv
    (fun k '(s1, lev1, nm1, _, c1) => pend_ok lev1 s1 /\ cwf c1 /\ l_forest c1 = [] /\ flat_left 0%N c1 /\
       exists j, k + forest_len c1 = forest_len c + 2 * j /\ j + length (marks (pending lev1 nm1 s1)) <= length (marks (pending lev nm s)))
    (fun k c1 => exists j, k + forest_len c1 = forest_len c + 2 * j /\ j <= length (marks (pending lev nm s)))) with (n := 0) in H;
    [exact H| |split; [exact P|]; split; [exact C|]; split; [exact L|]; split; [exact Fl|]; exists 0; cbn; split; lia].
  clear. intros n [[[[s1 lev1] nm1] nn1] c1] k x (P1 & C1 & L1 & F1 & j & J1 & J2) H.
  wstep H. apply free_Ok in W. destruct W as (W & ->). destruct a as [o s'].
  destruct (as_is_empty s1) eqn:Em.
  - rewrite next_archive_empty in W by exact Em. injection W as <- <-. apply wret_Ok in H. destruct H as (<- & ->).
    exists j. rewrite !Nat.add_0_r. split; [exact J1|lia].
  - destruct (next_archive_vec s1 (proj1 P1) Em) as (lev2 & s2 & R & P2 & _ & A). rewrite R in W. injection W as <- <-.
    destruct (pend_some _ _ P1 Em) as (l & -> & Hl & Hc).
    wstep H. apply free_Ok in W. destruct W as (W & ->). rewrite tree_new_eq in W. injection W as <-.
    wstep H. apply free_Ok in W. destruct W as (W & ->). injection W as <-.
    wstep H. apply wret_Ok in H. destruct H as (<- & ->).
    change (Node 0%N None (Leaf (current s1)) None None) with (leaf_of (current s1)) in W.
    assert (Cl : cwf (c_from (leaf_of (current s1)))) by (apply cwf_leaf, Hc).
    pose proof (forget_Ok _ _ _ W) as X. rewrite join_same in X.
    destruct (join_dummy _ l nm1 c1 Hl Cl C1) as (c2 & Y & C2 & O2 & K2). rewrite Y in X. injection X as ->.
    destruct (join_moves _ l nm1 Dummy c1 _ _ Hl Cl C1 W) as (dl & dr & t & T & N1 & (_ & _ & A3) & (_ & B2 & _)).
    destruct (leaf_left l (current s1) Hl) as (Q1 & Q2). destruct (A3 eq_refl Q1 Q2) as (-> & Lf & Tl).
    assert (Bd : dr <= 1). { apply B2; [exact L1|]. unfold flat_left in *. destruct (c_tree c1); [|exact I]. destruct (t_left _); [|exact I]. cbn in *. lia. }
    split; [exact P2|]. split; [exact C2|]. split; [exact Lf|]. split; [unfold flat_left; rewrite T, Tl; cbn; lia|].
    exists (j + dr). cbn [forest_len c_from l_forest r_forest] in N1. split.
    + change (forest_len (c_from (leaf_of (current s1)))) with 0 in N1. lia.
    + rewrite (next_archive_marks s1 l nm1 _ lev2 s2 A) in J2. rewrite (pending_marks lev2 nn1 (tree_name (as_name s1)) s2). lia.
Qed.

Lemma right_loop_moves s lev nm c n c' : pend_ok lev s -> cwf c -> corder c ->
  w_unfocus_right_loop s lev nm c = Ok (n, c') ->
  exists j, n + forest_len c' = forest_len c + 2 * j /\ j <= length (marks (cobs c)) + length (marks (pending lev nm s)).
Proof.
  intros P C K H. unfold w_unfocus_right_loop in H.
  eapply (wloop_inv
    (fun k '(s1, lev1, nm1, _, c1) => pend_ok lev1 s1 /\ cwf c1 /\ corder c1 /\
       (k = 0 /\ c1 = c /\ length (marks (pending lev1 nm1 s1)) = length (marks (pending lev nm s)) \/
        r_forest c1 = [] /\ flat_right 1%N c1 /\
        exists j, k + forest_len c1 = forest_len c + 2 * j /\
          j + length (marks (pending lev1 nm1 s1)) <= length (marks (cobs c)) + length (marks (pending lev nm s))))
    (fun k c1 => exists j, k + forest_len c1 = forest_len c + 2 * j /\ j <= length (marks (cobs c)) + length (marks (pending lev nm s)))) with (n := 0) in H;
    [exact H| |split; [exact P|]; split; [exact C|]; split; [exact K|]; left; auto].
  clear. intros n [[[[s1 lev1] nm1] nn1] c1] k x (P1 & C1 & K1 & D) H.
  wstep H. apply free_Ok in W. destruct W as (W & ->). destruct a as [o s'].
  destruct (as_is_empty s1) eqn:Em.
  - rewrite next_archive_empty in W by exact Em. injection W as <- <-. apply wret_Ok in H. destruct H as (<- & ->).
    rewrite !Nat.add_0_r. destruct D as [(-> & -> & _)|(_ & _ & j & J1 & J2)]; [exists 0; split; lia|exists j; split; [exact J1|lia]].
  - destruct (next_archive_vec s1 (proj1 P1) Em) as (lev2 & s2 & R & P2 & _ & A). rewrite R in W. injection W as <- <-.
    destruct (pend_some _ _ P1 Em) as (l & -> & Hl & Hc).
    wstep H. apply free_Ok in W. destruct W as (W & ->). rewrite tree_new_eq in W. injection W as <-.
    wstep H. apply free_Ok in W. destruct W as (W & ->). injection W as <-.
    wstep H. apply wret_Ok in H. destruct H as (<- & ->).
    change (Node 0%N None (Leaf (rev (current s1))) None None) with (leaf_of (rev (current s1))) in W.
    assert (Cl : cwf (c_from (leaf_of (rev (current s1))))).
    { apply cwf_leaf. intros X. apply Hc. rewrite <- (rev_involutive (current s1)), X. reflexivity. }
    pose proof (forget_Ok _ _ _ W) as X. rewrite join_same in X.
    destruct (join_dummy c1 l nm1 _ Hl C1 Cl) as (c2 & Y & C2 & O2 & K2). rewrite Y in X. injection X as ->.
    destruct (join_moves c1 l nm1 Dummy _ _ _ Hl C1 Cl W) as (dl & dr & t & T & N1 & (A1 & A2 & _) & (_ & _ & B3)).
    destruct (leaf_right l (rev (current s1)) Hl) as (Q1 & Q2). destruct (B3 eq_refl Q1 Q2) as (-> & Rf & Tr).
    change (forest_len (c_from (leaf_of (rev (current s1))))) with 0 in N1.
    split; [exact P2|]. split; [exact C2|]. split; [apply K2; [exact K1|apply corder_leaf]|]. right.
    split; [exact Rf|]. split; [unfold flat_right; rewrite T, Tr; cbn; lia|].
    rewrite (pending_marks lev2 nn1 (tree_name (as_name s1)) s2).
    pose proof (next_archive_marks s1 l nm1 _ lev2 s2 A) as Ln. destruct D as [(-> & -> & D)|(Rc & Fr & j & J1 & J2)].
    + exists dl. split; [lia|]. specialize (A1 K1). pose proof (seen_marks (cobs c)). lia.
    + exists (j + dl). split; [lia|].
      assert (dl <= 1). { apply A2; [exact Rc|]. unfold flat_right in *. destruct (c_tree c1); [|exact I]. destruct (t_right _); [|exact I]. cbn in *. lia. }
      lia.
Qed.

Lemma middle_moves v ls llev lnm rs rlev rnm n c : v <> [] -> pend_ok llev ls -> pend_ok rlev rs ->
  (wdo t0 <- free (unwrap "unfocus: leaf" (tree_new 0%N None (Leaf v) None None));
   wdo c <- w_unfocus_left_loop ls llev lnm (c_from t0);
   wdo c <- w_unfocus_right_loop rs rlev rnm c; w_up_all c) = Ok (n, c) ->
  n <= 4 * length (marks (pending llev lnm ls)) + 2 * length (marks (pending rlev rnm rs)) + 1.
Proof.
  intros Hv Pl Pr H. wstep H. apply free_Ok in W. destruct W as (W & ->). rewrite tree_new_eq in W. injection W as <-.
  change (Node 0%N None (Leaf v) None None) with (leaf_of v) in H.
  wstep H. rename a into c1. wstep H. rename a into c2. apply up_all_moves in H. subst.
  destruct (left_loop_spec ls llev lnm (c_from (leaf_of v)) Pl (cwf_leaf _ Hv)) as (x & X & C1 & O1 & K1).
  pose proof (forget_Ok _ _ _ W) as Y. rewrite left_loop_same, X in Y. injection Y as ->.
  destruct (left_loop_moves _ _ _ _ _ _ Pl (cwf_leaf _ Hv) eq_refl I W) as (j1 & J1 & J1').
  destruct (right_loop_moves _ _ _ _ _ _ Pr C1 (K1 (corder_leaf _)) W0) as (j2 & J2 & J2').
  rewrite O1, cobs_from_leaf, marks_app, app_length, marks_map_elt in J2'. cbn [length] in J2'.
  assert (forall l : atoms, length (marks (rev l)) = length (marks l)) as Rv.
  { induction l as [|[e|m k] l IH]; [reflexivity| |]; cbn [rev marks]; rewrite marks_app, app_length; cbn; lia. }
  rewrite Rv in J2'. change (forest_len (c_from (leaf_of v))) with 0 in J1. lia.
Qed.
(** Step 3 on either side. *)
Lemma left_tail lf tr n jc : left_ok lf -> tree_ok tr -> lf_ord (l_forest lf) ->
  (wdo ' (u, lf) <- w_up lf;
   wdo jc <-
     (if up_failed u then wret (c_from tr)
      else
        wdo lev <- free (unwrap "unfocus: peek_level" (peek_level lf));
        let nm := peek_name lf in
        wdo ' (_, lf) <- w_down_left_force ForceDiscard lf;
        w_join lf lev nm Dummy (c_from tr)); wret jc) = Ok (n, jc) ->
  exists d, n + forest_len jc = length (l_forest lf) + 1 + 2 * d /\
    d <= length (marks (tree_atoms (Some tr))) /\ (top_le (Some tr) (l_forest lf) -> d = 0) /\
    (l_forest lf = [] -> jc = c_from tr).
Proof.
  intros K Kt Or H. pose proof (left_up lf K) as U. wstep H. unfold w_up in W. apply move_Ok in W. destruct W as (W & ->).
  destruct (l_forest lf) as [|[d ut] rest] eqn:L.
  - rewrite U in W. injection W as <-. wstep H. apply wret_Ok in W, H. destruct W as (<- & ->), H as (<- & ->).
    exists 0. cbn. split; [reflexivity|]. split; [lia|]. auto.
  - destruct U as (c' & t' & U & K' & Lf' & T' & Lv & Nm & Tl'). rewrite U in W. injection W as <-. cbn [up_failed] in H.
    wstep H. apply wret_Ok in H. destruct H as (-> & ->). wstep W. apply free_Ok in W0. destruct W0 as (W0 & ->).
    unfold peek_level in W0. rewrite T' in W0. injection W0 as <-. cbv zeta in W. wstep W. unfold w_down_left_force in W0. apply move_Ok in W0. destruct W0 as (W0 & ->).
    destruct (left_discard lf d ut rest K L) as (tl & Tl & Ktl & C1 & LA & Ord).
    unfold down_left_force in W0. rewrite T', Tl', Tl in W0. injection W0 as <-. rewrite Lf', (lo_r _ K'), Lv in W.
    assert (Lu : (1 <= t_level ut)%N).
    { pose proof (lo_l _ K) as F. rewrite L in F. inversion F as [|? ? [[Q _] _] _]. exact Q. }
    destruct (join_moves _ _ _ _ _ _ _ Lu C1 (cwf_tree_ok _ Kt) W) as (dl & dr & t & T & N1 & (_ & _ & A3) & (B1 & _ & B3)).
    destruct Or as (_ & Ll & Hd & _). rewrite Tl in Ll. destruct (A3 eq_refl Hd Ll) as (-> & _).
    exists dr. split; [|split; [|split]].
    + change (forest_len (c_from tr)) with 0 in N1. cbn [length]. unfold forest_len at 2 in N1. cbn [l_forest r_forest length] in N1. lia.
    + rewrite cobs_from in B1. exact B1.
    + intros Tp. now apply B3.
    + discriminate.
Qed.
Lemma right_tail rf jc n jc' : right_ok rf -> cwf jc -> corder jc -> rf_ord (r_forest rf) ->
  (wdo ' (u, rf) <- w_up rf;
   wdo jc <-
     (if up_failed u then wret jc
      else
        wdo lev <- free (unwrap "unfocus: peek_level" (peek_level rf));
        let nm := peek_name rf in
        wdo ' (_, rf) <- w_down_right_force ForceDiscard rf;
        w_join jc lev nm Dummy rf); wret jc) = Ok (n, jc') ->
  exists d, n + forest_len jc' = forest_len jc + length (r_forest rf) + 1 + 2 * d /\
    d <= seen_from_right (cobs jc) /\
    (l_forest jc = [] -> r_forest jc = [] -> top_lt (c_tree jc) (r_forest rf) -> d = 0).
Proof.
  intros K Kt Kj Or H. pose proof (right_up rf K) as U. wstep H. unfold w_up in W. apply move_Ok in W. destruct W as (W & ->).
  destruct (r_forest rf) as [|[d ut] rest] eqn:L.
  - rewrite U in W. injection W as <-. wstep H. apply wret_Ok in W, H. destruct W as (<- & ->), H as (<- & ->).
    exists 0. cbn. split; [lia|]. split; [lia|]. auto.
  - destruct U as (c' & t' & U & K' & Lf' & T' & Lv & Nm & Tl'). rewrite U in W. injection W as <-. cbn [up_failed] in H.
    wstep H. apply wret_Ok in H. destruct H as (-> & ->). wstep W. apply free_Ok in W0. destruct W0 as (W0 & ->).
    unfold peek_level in W0. rewrite T' in W0. injection W0 as <-. cbv zeta in W. wstep W. unfold w_down_right_force in W0. apply move_Ok in W0. destruct W0 as (W0 & ->).
    destruct (right_discard rf d ut rest K L) as (tl & Tl & Ktl & C1 & LA & Ord).
    unfold down_right_force in W0. rewrite T', Tl', Tl in W0. injection W0 as <-. rewrite Lf', (ro_l _ K'), Lv in W.
    assert (Lu : (1 <= t_level ut)%N).
    { pose proof (ro_r _ K) as F. rewrite L in F. inversion F as [|? ? [[Q _] _] _]. exact Q. }
    destruct (join_moves _ _ _ _ _ _ _ Lu Kt C1 W) as (dl & dr & t & T & N1 & (A1 & _ & A3) & (_ & _ & B3)).
    destruct Or as (_ & Ll & Hd & _). rewrite Tl in Ll. destruct (B3 eq_refl Hd Ll) as (-> & _).
    exists dl. split; [|split].
    + cbn [length]. unfold forest_len at 3 in N1. cbn [l_forest r_forest length] in N1. lia.
    + exact (A1 Kj).
    + intros Lj Rj Tp. apply A3; [exact Rj|rewrite Lj; exact I|]. apply (top_lt_lev _ d _ rest Tp).
Qed.

Definition w_tail (tr : rtree) (lf rf : rcursor) : work (raz_tree E M) :=
  let jc := c_from tr in
  wdo ' (u, lf) <- w_up lf;
  wdo jc <-
    (if up_failed u then wret jc
     else
       wdo lev <- free (unwrap "unfocus: peek_level" (peek_level lf));
       let nm := peek_name lf in
       wdo ' (_, lf) <- w_down_left_force ForceDiscard lf;
       w_join lf lev nm Dummy jc);
  wdo ' (u, rf) <- w_up rf;
  wdo jc <-
    (if up_failed u then wret jc
     else
       wdo lev <- free (unwrap "unfocus: peek_level" (peek_level rf));
       let nm := peek_name rf in
       wdo ' (_, rf) <- w_down_right_force ForceDiscard rf;
       w_join jc lev nm Dummy rf);
  wdo jc <- w_up_all jc;
  free (mk_raz_tree (at_tree jc)).

Lemma wbind_run {A B} (m : work A) (k : A -> work B) n1 a n2 b : m = Ok (n1, a) -> k a = Ok (n2, b) -> wbind m k = Ok (n1 + n2, b).
Proof. intros -> K. unfold wbind. cbn. now rewrite K. Qed.

Lemma tail_moves lf rf tr n t : left_ok lf -> right_ok rf -> tree_ok tr -> conventional tr ->
  lf_ord (l_forest lf) -> rf_ord (r_forest rf) -> w_tail tr lf rf = Ok (n, t) ->
  exists dA dB, n = length (l_forest lf) + length (r_forest rf) + 3 + 2 * (dA + dB) /\
    dA <= length (marks (tree_atoms (Some tr))) /\ (top_le (Some tr) (l_forest lf) -> dA = 0) /\
    dB <= seen_from_right (rev (left_atoms lf) ++ tree_atoms (Some tr)) /\
    (l_forest lf = [] -> top_lt (Some tr) (r_forest rf) -> dB = 0).
Proof.
  intros Kl Kr Kt Ct Ol Or H. unfold w_tail in H. cbv zeta in H.
  wstep H. destruct a as [u lf1]. wstep H. rename a into jc. wstep H. destruct a as [u2 rf1]. wstep H. rename a into jc2.
  wstep H. apply free_Ok in H. destruct H as (_ & ->). apply up_all_moves in W3. subst.
  assert (HL := wbind_run _ (fun '(u, lf) => wdo jc <-
     (if up_failed u then wret (c_from tr)
      else
        wdo lev <- free (unwrap "unfocus: peek_level" (peek_level lf));
        let nm := peek_name lf in
        wdo ' (_, lf) <- w_down_left_force ForceDiscard lf;
        w_join lf lev nm Dummy (c_from tr)); wret jc) _ _ _ jc W (wbind_run _ wret _ _ 0 jc W0 eq_refl)).
  destruct (left_tail lf tr _ jc Kl Kt Ol HL) as (dA & A1 & A2 & A3 & A4).
  destruct (step3_left lf (c_from tr) Kl (cwf_tree_ok _ Kt)) as (x & X & C1 & O1 & K1).
  assert (x = jc).
  { pose proof (forget_Ok _ _ _ W) as Y. unfold w_up in Y. rewrite forget_move in Y. rewrite Y in X. cbn [bind] in X.
    apply bind_Ok in X. destruct X as (x' & X & X'). injection X' as ->.
    pose proof (forget_Ok _ _ _ W0) as Z. destruct (up_failed u); [cbn in Z; congruence|].
    rewrite forget_bind, forget_free in Z. apply bind_Ok in Z. destruct Z as (lev & Z1 & Z). rewrite Z1 in X. cbn [bind] in X.
    cbv zeta in Z, X. unfold w_down_left_force in Z. rewrite forget_bind, forget_move in Z. cbn [bind] in Z.
    destruct (down_left_force ForceDiscard lf1) as [b lf2]. rewrite join_same in Z. congruence. }
  subst x.
  assert (HR := wbind_run _ (fun '(u, rf) => wdo jc <-
     (if up_failed u then wret jc
      else
        wdo lev <- free (unwrap "unfocus: peek_level" (peek_level rf));
        let nm := peek_name rf in
        wdo ' (_, rf) <- w_down_right_force ForceDiscard rf;
        w_join jc lev nm Dummy rf); wret jc) _ _ _ jc2 W1 (wbind_run _ wret _ _ 0 jc2 W2 eq_refl)).
  assert (Kj : corder jc) by (apply K1; [exact Ol|now apply corder_from]).
  destruct (right_tail rf jc _ jc2 Kr C1 Kj Or HR) as (dB & B1 & B2 & B3).
  exists dA, dB. split; [lia|]. split; [exact A2|]. split; [exact A3|]. split.
  - rewrite O1, cobs_from in B2. exact B2.
  - intros L T. rewrite (A4 L) in B3. now apply B3.
Qed.
Lemma marks_ren (l : atoms) : length (marks (map (@ren E) l)) = length (marks l).
Proof. induction l as [|[e|m n] l IH]; cbn [map ren marks length]; [reflexivity|exact IH|]. now rewrite IH. Qed.
Lemma side_marks s nm lev o s' : map ren (as_abs s) = map Elt (rev (match o with Some v => v | None => [] end)) ++ pending lev nm s' ->
  length (marks (pending lev nm s')) = length (marks (as_abs s)).
Proof. intros A. now rewrite <- (marks_ren (as_abs s)), A, marks_app, marks_map_elt. Qed.

(** Step 1. *)
Definition step1 (lnm : option name) (llev : option level) (lo : option (list E)) (ls : astack E level) (rnm : option name) (rlev : option level)
    (ro : option (list E)) (rs : astack E level) :=
  match as_is_empty ls, lo, ro, as_is_empty rs with
  | _, Some v, None, _ => Ok (Some v, lnm, llev, ls, rnm, rlev, rs)
  | _, None, Some v, _ => Ok (Some (rev v), lnm, llev, ls, rnm, rlev, rs)
  | _, Some lv, Some rv, _ => Ok (Some (lv ++ rev rv), lnm, llev, ls, rnm, rlev, rs)
  | false, None, None, _ =>
      let lnm := tree_name (as_name ls) in
      do ' (o, ls) <- as_next_archive ls;
      do ' (v, lev) <- unwrap "unfocus: next_archive" o;
      Ok (Some v, lnm, lev, ls, rnm, rlev, rs)
  | true, None, None, false =>
      let rnm := tree_name (as_name rs) in
      do ' (o, rs) <- as_next_archive rs;
      do ' (v, lev) <- unwrap "unfocus: next_archive" o;
      Ok (Some (rev v), lnm, llev, ls, rnm, lev, rs)
  | true, None, None, true => Ok (None, lnm, llev, ls, rnm, rlev, rs)
  end.

Lemma step1_ok lnm llev (lo : option (list E)) ls rnm rlev ro rs vec lnm' llev' ls' rnm' rlev' rs' :
  pend_ok llev ls -> pend_ok rlev rs -> lo <> Some [] -> ro <> Some [] ->
  step1 lnm llev lo ls rnm rlev ro rs = Ok (vec, lnm', llev', ls', rnm', rlev', rs') ->
  match vec with
  | Some v => v <> [] /\ pend_ok llev' ls' /\ pend_ok rlev' rs' /\
      length (marks (pending llev' lnm' ls')) <= length (marks (pending llev lnm ls)) /\
      length (marks (pending rlev' rnm' rs')) <= length (marks (pending rlev rnm rs))
  | None => lo = None /\ ro = None /\ pending llev lnm ls = [] /\ pending rlev rnm rs = []
  end.
Proof.
  intros Pl Pr Nl Nr H. unfold step1 in H.
  assert (NR : forall v : list E, v <> [] -> rev v <> []).
  { intros v Hv X. apply Hv. rewrite <- (rev_involutive v), X. reflexivity. }
  destruct lo as [lv|], ro as [rv|].
  - assert (X : Ok (Some (lv ++ rev rv), lnm, llev, ls, rnm, rlev, rs) = Ok (vec, lnm', llev', ls', rnm', rlev', rs')) by (destruct (as_is_empty ls); exact H).
    injection X as <- <- <- <- <- <- <-. split; [destruct lv; [congruence|discriminate]|]. auto.
  - assert (X : Ok (Some lv, lnm, llev, ls, rnm, rlev, rs) = Ok (vec, lnm', llev', ls', rnm', rlev', rs')) by (destruct (as_is_empty ls); exact H).
    injection X as <- <- <- <- <- <- <-. split; [congruence|]. auto.
  - assert (X : Ok (Some (rev rv), lnm, llev, ls, rnm, rlev, rs) = Ok (vec, lnm', llev', ls', rnm', rlev', rs')) by (destruct (as_is_empty ls); exact H).
    injection X as <- <- <- <- <- <- <-. split; [apply NR; congruence|]. auto.
  - destruct (as_is_empty ls) eqn:Els.
    + destruct (pend_none _ lnm _ Pl Els) as (-> & Ql). destruct (as_is_empty rs) eqn:Ers.
      * destruct (pend_none _ rnm _ Pr Ers) as (-> & Qr). injection H as <- <- <- <- <- <- <-. auto.
      * destruct (next_archive_vec rs (proj1 Pr) Ers) as (lev2 & s2 & R & P2 & _ & A2).
        destruct (pend_some _ _ Pr Ers) as (l & -> & Hl & Hc). cbv zeta in H. rewrite R in H. cbn [bind unwrap] in H.
        injection H as <- <- <- <- <- <- <-. split; [now apply NR|]. split; [exact Pl|]. split; [exact P2|]. split; [lia|].
        rewrite (next_archive_marks rs l rnm _ lev2 s2 A2). lia.
    + destruct (next_archive_vec ls (proj1 Pl) Els) as (lev2 & s2 & R & P2 & _ & A2).
      destruct (pend_some _ _ Pl Els) as (l & -> & Hl & Hc). cbv zeta in H. rewrite R in H. cbn [bind unwrap] in H.
      injection H as <- <- <- <- <- <- <-. split; [exact Hc|]. split; [exact P2|]. split; [exact Pr|]. split; [|lia].
      rewrite (next_archive_marks ls l lnm _ lev2 s2 A2). lia.
Qed.

Lemma seen_beyond k : forall l : atoms, seen_from_right (rev (beyond k l)) <= S (seen_from_right (rev (beyond (S k) l))).
Proof.
  induction k as [|k IH]; intros l.
  - induction l as [|[e|m n] l IH]; [cbn; lia| |].
    + rewrite beyond_0 in *. cbn [beyond rev]. rewrite seen_right_elts by reflexivity. exact IH.
    + rewrite beyond_0. cbn [beyond rev]. rewrite beyond_0. pose proof (seen_app (rev l) [Mark m n]). cbn [marks length] in *. lia.
  - induction l as [|[e|m n] l IHl]; [cbn; lia|exact IHl|]. cbn [beyond]. apply IH.
Qed.

Theorem unfocus_moves (z : raz E M) (s : sraz E) n t : sim z s -> ordered z -> w_unfocus z = Ok (n, t) ->
  n <= left_path z + right_path z + 2 * seen_from_right (rev (beyond (S (s_lnew s)) (s_left s))) + 8 * (s_lnew s + s_rnew s) + 6.
Proof.
  intros S (Ol & Or) H. destruct (sim_paths z s S (conj Ol Or)) as (PL & _).
  pose proof (seen_beyond (s_lnew s) (s_left s)) as Sb. rewrite <- PL in Sb. unfold w_unfocus in H.
  destruct (unfocus_side_spec _ (sim_ls _ _ S)) as (lnm & llev & lo & ls & El & Pl & Nl & Al & Eml).
  destruct (unfocus_side_spec _ (sim_rs _ _ S)) as (rnm & rlev & ro & rs & Er & Pr & Nr & Ar & Emr).
  rewrite El, Er in H. wstep H. apply free_Ok in W. destruct W as (W & ->). injection W as <-.
  wstep H. apply free_Ok in W. destruct W as (W & ->). injection W as <-.
  wstep H. apply free_Ok in W. destruct W as (W & ->). destruct a as [[[[[[vec lnm'] llev'] ls'] rnm'] rlev'] rs'].
  change (step1 lnm llev lo ls rnm rlev ro rs = Ok (vec, lnm', llev', ls', rnm', rlev', rs')) in W.
  pose proof (step1_ok _ _ _ _ _ _ _ _ _ _ _ _ _ _ _ Pl Pr Nl Nr W) as S1. clear W.
  assert (Ml := side_marks _ _ _ _ _ Al). assert (Mr := side_marks _ _ _ _ _ Ar). rewrite <- (sim_ln _ _ S) in Ml. rewrite <- (sim_rn _ _ S) in Mr.
  unfold left_path, right_path in *.
  wstep H. destruct a as [[tr lf] rf]. match type of H with _ = ?r => change (match tr with None => free (mk_raz_tree None) | Some tr => w_tail tr lf rf end = r) in H end.
  destruct vec as [v|].
  - destruct S1 as (Hv & Pl' & Pr' & Ll & Lr). wstep W. wstep W. wstep W. wstep W. wstep W. apply wret_Ok in W. destruct W as (X & ->). injection X as <- <- <-.
    apply free_Ok in W4. destruct W4 as (W4 & ->).
    assert (Mid := wbind_run _ (fun t0 => wdo c <- w_unfocus_left_loop ls' llev' lnm' (c_from t0);
        wdo c <- w_unfocus_right_loop rs' rlev' rnm' c; w_up_all c) _ _ _ _ W0
      (wbind_run _ (fun c => wdo c <- w_unfocus_right_loop rs' rlev' rnm' c; w_up_all c) _ _ _ _ W1 (wbind_run _ w_up_all _ _ _ _ W2 W3))).
    pose proof (middle_moves _ _ _ _ _ _ _ _ _ Hv Pl' Pr' Mid) as MM.
    destruct (middle_spec v ls' llev' lnm' rs' rlev' rnm' Hv Pl' Pr') as (c & tt & MS & T & Kt & Ct & At).
    pose proof (forget_Ok _ _ _ Mid) as FM. rewrite forget_bind, forget_free in FM.
    assert (c = a2 /\ tt = a3) as [-> ->].
    { apply bind_Ok in FM. destruct FM as (t0 & Q0 & FM). rewrite Q0 in MS. cbn [bind] in MS.
      rewrite forget_bind, left_loop_same in FM. apply bind_Ok in FM. destruct FM as (c1 & Q1 & FM). rewrite Q1 in MS. cbn [bind] in MS.
      rewrite forget_bind, right_loop_same in FM. apply bind_Ok in FM. destruct FM as (c2 & Q2 & FM). rewrite Q2 in MS. cbn [bind] in MS.
      rewrite up_all_same in FM. rewrite FM in MS. injection MS as ->. split; [reflexivity|]. rewrite T in W4. injection W4 as ->. reflexivity. }
    destruct (tail_moves _ _ _ _ _ (sim_lc _ _ S) (sim_rc _ _ S) Kt Ct Ol Or H) as (dA & dB & -> & B1 & _ & B2 & _).
    pose proof (seen_app (rev (left_atoms (z_l_forest z))) (tree_atoms (Some a3))) as Sa.
    assert (Mt : length (marks (tree_atoms (Some a3))) <= s_lnew s + s_rnew s).
    { rewrite At, !marks_app, !app_length, marks_map_elt.
      assert (forall l : atoms, length (marks (rev l)) = length (marks l)) as Rv.
      { induction l as [|[e|m k] l IH]; [reflexivity| |]; cbn [rev marks]; rewrite marks_app, app_length; cbn; lia. }
      rewrite Rv. cbn [length]. lia. }
    assert (Sl : seen_from_right (rev (left_atoms (z_l_forest z))) = length (l_forest (z_l_forest z))).
    { unfold left_atoms. rewrite rev_involutive. pose proof (left_forest_seen _ (lo_l _ (sim_lc _ _ S)) Ol []) as Y. rewrite app_nil_r in Y.
      rewrite Y; [cbn; lia|]. destruct (l_forest _) as [|[? ?] ?]; [exact I|constructor]. }
    lia.
  - destruct S1 as (-> & -> & Ql & Qr). rewrite Ql in Ml. rewrite Qr in Mr. cbn in Ml, Mr.
    assert (SL : s_left s = left_atoms (z_l_forest z)) by (rewrite (sim_left _ _ S), Al, Ql; reflexivity).
    wstep W. unfold w_up in W0. apply move_Ok in W0. destruct W0 as (W0 & ->).
    pose proof (left_up _ (sim_lc _ _ S)) as Ul. destruct (l_forest (z_l_forest z)) as [|[d ut] rest] eqn:Lf.
    + rewrite Ul in W0. injection W0 as <-. cbn [up_failed] in W. wstep W. unfold w_up in W0. apply move_Ok in W0. destruct W0 as (W0 & ->).
      pose proof (right_up _ (sim_rc _ _ S)) as Ur. destruct (r_forest (z_r_forest z)) as [|[d ut] rest] eqn:Rf.
      * rewrite Ur in W0. injection W0 as <-. cbn [up_failed] in W. apply wret_Ok in W. destruct W as (X & ->). injection X as <- <- <-.
        apply free_Ok in H. destruct H as (_ & ->). lia.
      * destruct Ur as (c' & t' & U & K' & Lf' & T' & Lv & Nm & Tl'). rewrite U in W0. injection W0 as <-. cbn [up_failed] in W.
        destruct (right_discard _ d ut rest (sim_rc _ _ S) Rf) as (tl & Tl & Ktl & C1 & LA & Ord).
        wstep W. apply free_Ok in W0. destruct W0 as (W0 & ->). unfold right_tree in W0. rewrite T', Tl', Tl in W0. injection W0 as <-.
        apply wret_Ok in W. destruct W as (X & ->). injection X as <- <- <-.
        rewrite Rf in Ord. destruct (Ord Or) as ([K1 K2 K3 K4 K5] & Le). rewrite <- Lf in Ol. rewrite <- Lf' in K3.
        destruct (tail_moves _ _ _ _ _ (sim_lc _ _ S) K' Ktl K1 Ol K3 H) as (dA & dB & -> & _ & A2 & _ & B2).
        rewrite Lf in *. rewrite (A2 I), (B2 eq_refl); [rewrite Lf'; cbn [length]; lia|]. rewrite Lf'. exact K5.
    + destruct Ul as (c' & t' & U & K' & Lf' & T' & Lv & Nm & Tl'). rewrite U in W0. injection W0 as <-. cbn [up_failed] in W.
      destruct (left_discard _ d ut rest (sim_lc _ _ S) Lf) as (tl & Tl & Ktl & C1 & LA & Ord).
      wstep W. apply free_Ok in W0. destruct W0 as (W0 & ->). unfold left_tree in W0. rewrite T', Tl', Tl in W0. injection W0 as <-.
      apply wret_Ok in W. destruct W as (X & ->). injection X as <- <- <-.
      rewrite Lf in Ord. destruct (Ord Ol) as ([K1 K2 K3 K4 K5] & Le). rewrite <- Lf' in K2.
      destruct (tail_moves _ _ _ _ _ K' (sim_rc _ _ S) Ktl K1 K2 Or H) as (dA & dB & -> & _ & A2 & B1 & _).
      rewrite A2 by (rewrite Lf'; exact K4).
      assert (B1' : dB <= seen_from_right (rev (beyond 1 (s_left s)))).
      { rewrite SL, LA. cbn [beyond]. rewrite beyond_0, rev_involutive.
        unfold CursorProofs.cobs. cbn [l_forest c_tree r_forest rf_obs]. rewrite app_nil_r.
        unfold left_atoms in B1. rewrite rev_involutive, Lf' in B1. exact B1. }
      rewrite <- Ml. rewrite Lf'. cbn [length]. lia.
Qed.
End Work.
