(** * Moves of edits at a position, on average, and of repeated peeks. *)

From Verif Require Import Base BaseFacts Spec SpecRaz StackModel AStackModel StackProofs LevelTreeModel TreeSpec TreeCursorModel RazMetaModel
  RazModel RazView RazProofs RazScripts RazSession RazReach RazFacts RazIndex LevelGenModel MemoSpec PathSpec RazPath ChanceSpec Chance ChanceCases ChanceUse
  WorkModel WorkSpec WorkFacts WorkCursor WorkProofs WorkRaz.

Lemma edit_moves_count {E} (t : raz_tree E count) i n1 o : tree_reached false t -> (n_elts (contents t) < usize_mod)%N ->
  i <= length (elts (contents t)) -> w_focus t (N.of_nat i) = Ok (n1, o) ->
  let s0 := sz_focus_count i (contents t) in
  exists z, o = Some z /\ (seen_left s0 + seen_right s0 <= n1 <= seen_left s0 + seen_right s0 + 1) /\
  forall ops n2 os z', Forall zop_ok ops -> Forall no_peek ops -> w_run z ops = Ok (n2, (os, z')) ->
  let s := snd (sz_run s0 ops) in
  n2 + seen_left s0 + seen_right s0 = seen_left s + seen_right s + tolls s0 ops /\
  forall n3 t', w_unfocus z' = Ok (n3, t') ->
  n3 <= seen_left s + seen_right s + 2 * seen_left_next s + 8 * (s_lnew s + s_rnew s) + 6 /\
  n1 + n2 + n3 <= 2 * (seen_left s + seen_right s + seen_left_next s) + 8 * length ops + 7.
Proof.
  intros H Lt Hi F s0. destruct (focus_count_sim t i (tree_reached_good _ H) Lt Hi) as (z & F' & S & O).
  specialize (O (tree_reached_canonical _ H)). pose proof (forget_Ok _ _ _ F) as Y. rewrite focus_same, F' in Y. injection Y as <-.
  exists z. split; [reflexivity|]. pose proof (focus_moves t _ _ _ (tree_reached_good _ H) F) as N1.
  destruct (sim_paths z _ S O) as (A & B). fold s0 in S, A, B. unfold s0, sz_focus_count in *. destruct (split_count i (contents t)) as [p q].
  change (SRaz (rev p) q 0 0) with (sz_at p q) in *.
  assert (L0 : seen_left (sz_at p q) = seen_from_right p) by (unfold seen_left, sz_at; cbn [s_lnew s_left]; now rewrite beyond_0, rev_involutive).
  assert (R0 : seen_right (sz_at p q) = seen_from_left 0%N q) by (unfold seen_right, sz_at; cbn [s_rnew s_right]; now rewrite beyond_0).
  fold (seen_left (sz_at p q)) in A. fold (seen_right (sz_at p q)) in B. rewrite A, B in N1. split; [exact N1|].
  rewrite L0, R0 in *. apply edit_moves_sim; [exact S|exact O|lia].
Qed.

(** ** Averages *)
Section Average.
#[local] Open Scope N_scope.

Lemma average_add n g h x y : on_average n g x -> on_average n h y -> on_average n (fun ws => g ws + h ws) (x + y).
Proof. unfold on_average. intros A B. rewrite sum_draws_add. lia. Qed.
Lemma average_le n g h x y : (forall ws, draws n ws -> g ws <= h ws) -> x <= y -> on_average n h x -> on_average n g y.
Proof.
  unfold on_average. intros H L A. etransitivity; [apply sum_draws_le, H|]. etransitivity; [exact A|]. now apply N.mul_le_mono_l.
Qed.
Lemma average_const n x : on_average n (fun _ => x) x.
Proof. unfold on_average. rewrite sum_draws_const. lia. Qed.
Lemma average_first a b g x : on_average a g x -> on_average (a + b) (fun ws => g (firstn a ws)) x.
Proof.
  unfold on_average. intros A. pose proof (sum_draws_split a b g (fun _ => 0)) as X. rewrite sum_draws_const in X.
  erewrite sum_draws_ext; [rewrite X|intros ws _; cbn beta; symmetry; apply N.add_0_r].
  rewrite Nat2N.inj_add, N.pow_add_r. apply (N.mul_le_mono_l _ _ ((2 ^ 64) ^ N.of_nat b)) in A. lia.
Qed.
Lemma average_last a b h x : on_average b h x -> on_average (a + b) (fun ws => h (skipn a ws)) x.
Proof.
  unfold on_average. intros A. pose proof (sum_draws_split a b (fun _ => 0) h) as X. rewrite sum_draws_const in X.
  erewrite sum_draws_ext; [rewrite X|intros ws _; reflexivity].
  rewrite Nat2N.inj_add, N.pow_add_r. apply (N.mul_le_mono_l _ _ ((2 ^ 64) ^ N.of_nat a)) in A. lia.
Qed.

Lemma average_moves a b c (g : list N -> N) : N.of_nat a < 2 ^ 63 -> N.of_nat b < 2 ^ 63 ->
  (forall ws, draws (a + b) ws -> g ws <=
    2 * seen_r (map gen_branch_level (firstn a ws)) + 2 * seen_l 0 (map gen_branch_level (skipn a ws)) +
    2 * seen_r (map gen_branch_level (firstn (pred a) ws)) + c) ->
  on_average (a + b) g (4 * N.log2 (N.of_nat a) + N.log2 (N.of_nat b) + c + 11).
Proof.
  intros Ha Hb H.
  assert (R : forall n, N.of_nat n < 2 ^ 63 -> on_average n (fun ws => 2 * seen_r (map gen_branch_level ws)) (2 * N.log2 (N.of_nat n) + 4)).
  { intros n Hn. unfold on_average. rewrite sum_draws_mul. pose proof (total_r_log n Hn) as T. unfold total_r in T. lia. }
  assert (L : on_average b (fun ws => 2 * seen_l 0 (map gen_branch_level ws)) (N.log2 (N.of_nat b) + 3)).
  { unfold on_average. rewrite sum_draws_mul. pose proof (total_l_log b Hb) as T. unfold total_l in T. lia. }
  pose proof (average_first a b _ _ (R a Ha)) as A. pose proof (average_last a b _ _ L) as B.
  assert (C : on_average (a + b) (fun ws => 2 * seen_r (map gen_branch_level (firstn (pred a) ws))) (2 * N.log2 (N.of_nat a) + 4)).
  { replace (a + b)%nat with (pred a + (a - pred a + b))%nat by lia.
    apply (average_le _ _ (fun ws => 2 * seen_r (map gen_branch_level (firstn (pred a) ws))) (2 * N.log2 (N.of_nat (pred a)) + 4)); [intros; apply N.le_refl| |].
    - pose proof (N.log2_le_mono (N.of_nat (pred a)) (N.of_nat a)). lia.
    - exact (average_first (pred a) _ _ _ (R (pred a) ltac:(lia))). }
  pose proof (average_add _ _ _ _ _ (average_add _ _ _ _ _ (average_add _ _ _ _ _ A B) C) (average_const (a + b) c)) as X.
  eapply average_le; [|  |exact X]; [exact H|lia].
Qed.
End Average.

Lemma levels_next {E} k (l : list (atom E level)) ws : levels_from (rev (beyond k l)) ws -> levels_from (rev (beyond (S k) l)) (firstn (pred (length ws)) ws).
Proof.
  assert (X : map fst (marks (beyond (S k) l)) = tl (map fst (marks (beyond k l)))).
  { revert k. induction l as [|[e|m n] l IH]; intros k.
    - destruct k; reflexivity.
    - destruct k; [change (beyond 1 (Elt e :: l)) with (beyond 1 l); rewrite IH, !beyond_0; reflexivity|exact (IH (S k))].
    - destruct k; [change (beyond 1 (Mark m n :: l)) with (beyond 0 l); rewrite !beyond_0; reflexivity|exact (IH k)]. }
  unfold levels_from. rewrite !marks_rev, !map_rev. intros H. rewrite X.
  assert (Y : map fst (marks (beyond k l)) = rev (map gen_branch_level ws)) by now rewrite <- H, rev_involutive. rewrite Y.
  destruct (list_rev_case ws) as [->|(w & x & ->)]; [reflexivity|].
  rewrite app_length, Nat.add_comm. cbn [length Nat.add pred]. rewrite firstn_app, firstn_all, Nat.sub_diag. cbn [firstn]. rewrite app_nil_r.
  rewrite map_app, rev_app_distr. cbn [map rev app tl]. apply rev_involutive.
Qed.

Lemma average_edit {E} a b k (work : list N -> nat) : (N.of_nat a < 2 ^ 63)%N -> (N.of_nat b < 2 ^ 63)%N ->
  (forall ws, draws (a + b) ws -> exists (t : raz_tree E count) i ops n1 z n2 os z' n3 t',
    tree_reached false t /\ (n_elts (contents t) < usize_mod)%N /\ i <= length (elts (contents t)) /\
    Forall zop_ok ops /\ Forall no_peek ops /\ length ops <= k /\
    (let s := snd (sz_run (sz_focus_count i (contents t)) ops) in
     levels_from (rev (beyond (s_lnew s) (s_left s))) (firstn a ws) /\ levels_from (beyond (s_rnew s) (s_right s)) (skipn a ws)) /\
    w_focus t (N.of_nat i) = Ok (n1, Some z) /\ w_run z ops = Ok (n2, (os, z')) /\ w_unfocus z' = Ok (n3, t') /\
    n1 + n2 + n3 = work ws) ->
  on_average (a + b) (fun ws => N.of_nat (work ws)) (4 * N.log2 (N.of_nat a) + N.log2 (N.of_nat b) + 8 * N.of_nat k + 18)%N.
Proof.
  intros Ha Hb H.
  replace (4 * N.log2 (N.of_nat a) + N.log2 (N.of_nat b) + 8 * N.of_nat k + 18)%N
    with (4 * N.log2 (N.of_nat a) + N.log2 (N.of_nat b) + (8 * N.of_nat k + 7) + 11)%N by lia.
  apply average_moves; [exact Ha|exact Hb|]. intros ws D.
  destruct (H ws D) as (t & i & ops & n1 & z & n2 & os & z' & n3 & t' & Rt & Lt & Hi & Fo & Np & K & (La & Lb) & F & R & U & <-).
  destruct (edit_moves_count t i n1 _ Rt Lt Hi F) as (z0 & Z & _ & X). injection Z as <-.
  destruct (X ops n2 os z' Fo Np R) as (_ & Y). destruct (Y n3 t' U) as (_ & B). clear X Y.
  set (s := snd (sz_run (sz_focus_count i (contents t)) ops)) in *.
  pose proof (levels_next _ _ _ La) as Lc.
  assert (Ln : length (firstn a ws) = a) by (rewrite firstn_length, (proj1 D); lia).
  rewrite Ln, firstn_firstn, Nat.min_l in Lc by lia.
  unfold seen_left, seen_right, seen_left_next in B.
  pose proof (seen_r_eq (rev (beyond (s_lnew s) (s_left s)))) as E1. rewrite La in E1.
  pose proof (seen_r_eq (rev (beyond (S (s_lnew s)) (s_left s)))) as E2. rewrite Lc in E2.
  pose proof (seen_l_eq (beyond (s_rnew s) (s_right s)) 0%N) as E3. rewrite Lb in E3.
  rewrite <- E1, <- E2, <- E3. lia.
Qed.

(** ** Peeking again and again *)
Lemma chain_snoc {E} (x : nat -> E) ls m : forall i, exists nm e, chain x i (ls ++ [m]) = chain x i ls ++ [Mark m nm; Elt e].
Proof.
  induction ls as [|k ls IH]; intros i; cbn [app chain]; [do 2 eexists; reflexivity|].
  destruct (IH (S i)) as (nm & e & ->). do 2 eexists. reflexivity.
Qed.
Lemma split_count_full {E} (l : list (atom E level)) e : split_count (S (length (elts l))) (l ++ [Elt e]) = (l ++ [Elt e], []).
Proof.
  rewrite split_count_over by lia. rewrite Nat.sub_succ_l, Nat.sub_diag by lia. reflexivity.
Qed.
Lemma seen_ones {E} (p : list (atom E level)) : forall n, map fst (marks p) = repeat 1%N n -> seen_from_right p = n.
Proof.
  induction p as [|[e|m j] p IH]; intros n Lp; cbn [marks map fst] in Lp.
  - destruct n; [reflexivity|discriminate].
  - now apply IH.
  - destruct n as [|n]; [discriminate|]. injection Lp as -> Lp. specialize (IH n Lp). cbn [seen_from_right]. rewrite IH.
    assert (F : forallb (fun u : N * option name => (fst u <=? 1)%N) (marks p) = true).
    { apply forallb_forall. intros u Iu. assert (J : In (fst u) (repeat 1%N n)) by (rewrite <- Lp; apply in_map; exact Iu).
      apply repeat_spec in J. now rewrite J. }
    now rewrite F.
Qed.
Lemma seen_last {E} (p : list (atom E level)) nm : (forall u, In u (marks p) -> fst u < 2)%N -> seen_from_right (p ++ [Mark 2%N nm]) = 1.
Proof.
  induction p as [|[e|m j] p IH]; intros H; cbn [app seen_from_right].
  - reflexivity.
  - apply IH. exact H.
  - cbn [marks] in H. rewrite IH by (intros u Iu; apply H; now right). rewrite marks_app, forallb_app. cbn [marks forallb fst].
    pose proof (H (m, j) (or_introl eq_refl)) as L. cbn [fst] in L. replace (2 <=? m)%N with false by (symmetry; apply N.leb_gt; exact L).
    now rewrite !andb_false_r.
Qed.

Lemma peeks_long n : (N.of_nat (S (S n)) < usize_mod)%N ->
  exists (t : raz_tree nat count) z os z1, tree_reached false t /\ length (marks (contents t)) = S n /\
  rt_focus t (N.of_nat (S (S n))) = Ok (Some z) /\ zrun z [OPopL] = Ok (os, z1) /\ left_path z1 + right_path z1 = 1 /\
  forall k, exists os', w_run z1 (repeat OPeekL k) = Ok (k * (n + 3), (os', z1)).
Proof.
  intros Hn. destruct (chain_tree (fun i => i) (repeat 1%N n ++ [2%N]) 0 (M := count)) as (t & H & C).
  { apply Forall_app. split; [|repeat constructor; discriminate]. apply Forall_forall. intros m Im. apply repeat_spec in Im. subst. apply N.le_refl. }
  assert (L : map fst (marks (contents t)) = repeat 1%N n ++ [2%N]) by (rewrite C; apply chain_levels).
  assert (El : length (elts (contents t)) = S (S n)) by (rewrite C, chain_elts, app_length, repeat_length; cbn; lia).
  destruct (chain_snoc (fun i => i) (repeat 1%N n) 2%N 0) as (nm & e & Cs). pose proof (eq_trans C Cs) as C'. clear C Cs. rename C' into C.
  set (c := chain (fun i => i) 0 (repeat 1%N n)) in *.
  assert (Lc : map fst (marks c) = repeat 1%N n) by apply chain_levels.
  assert (Ec : length (elts c) = S n) by (unfold c; rewrite chain_elts, repeat_length; reflexivity).
  destruct (chain_last (fun i => i) (repeat 1%N n) 0) as (e0 & r & Rc). fold c in Rc.
  destruct (focus_count_sim t (S (S n)) (tree_reached_good _ H)) as (z & F & S0 & O0); [unfold n_elts; rewrite El; exact Hn|lia|].
  specialize (O0 (tree_reached_canonical _ H)).
  assert (X : sz_focus_count (S (S n)) (contents t) = SRaz (Elt e :: Mark 2%N nm :: rev c) [] 0 0).
  { unfold sz_focus_count. rewrite C. change [Mark 2%N nm; Elt e] with ([Mark 2%N nm] ++ [@Elt nat level e]). rewrite app_assoc.
    replace (S (S n)) with (S (length (elts (c ++ [Mark 2%N nm])))) by (rewrite elts_app, app_length, Ec; cbn; lia).
    rewrite split_count_full. unfold sz_at. rewrite !rev_app_distr. reflexivity. }
  rewrite X in S0.
  destruct (zrun_sim [OPopL] z _ ltac:(repeat constructor) S0) as (z1 & R1 & S1 & O1). specialize (O1 O0). cbn [sz_run sz_step sz_pop_left sp_pop drop_marks s_left s_right s_lnew s_rnew is_mark fst snd] in R1, S1.
  set (s1 := SRaz (Mark 2%N nm :: rev c) [] 0 0) in *.
  destruct (zstep_sim z1 s1 OPopL I S1) as (z2 & R2 & S2 & O2). specialize (O2 O1).
  destruct (zstep_sim z1 s1 OPeekL I S1) as (z1' & R3 & _ & _).
  destruct (sim_paths z1 s1 S1 O1) as (A1 & B1). destruct (sim_paths z2 _ S2 O2) as (A2 & B2).
  cbn [s1 s_lnew s_left s_rnew s_right beyond seen_from_left] in A1, B1. cbn [rev] in A1. rewrite rev_involutive, seen_last in A1.
  2:{ intros u Iu. apply (in_map fst) in Iu. rewrite Lc in Iu. apply repeat_spec in Iu. rewrite Iu. reflexivity. }
  assert (Y : snd (sz_step s1 OPopL) = SRaz r [] 0 0).
  { unfold s1. cbn [sz_step]. unfold sz_pop_left, sp_pop. cbn [s_left drop_marks]. rewrite Rc. reflexivity. }
  rewrite Y in A2, B2. cbn [s_lnew s_left s_rnew s_right] in A2, B2. rewrite beyond_0 in A2.
  assert (Lr : seen_from_right (rev r) = n).
  { apply seen_ones. rewrite <- Lc. rewrite <- (rev_involutive c), Rc. cbn [rev]. rewrite marks_app. cbn [marks]. now rewrite app_nil_r. }
  rewrite Lr in A2.
  assert (Cp : exists m x, w_pop_left z1 = Ok (m, (x, z2))).
  { cbn [zstep] in R2. destruct (pop_left z1) as [[x z2']| |] eqn:Pz; cbn [bind] in R2; try discriminate. injection R2 as _ <-.
    destruct (forget_inv (w_pop_left z1) (x, z2')) as (m & Wm); [now rewrite pop_left_same|]. eauto. }
  destruct Cp as (m & x & Cp).
  assert (Ck : exists k y, w_peek_left z1 = Ok (k, y)).
  { cbn [zstep] in R3. destruct (peek_left z1) as [y| |] eqn:Pz; cbn [bind] in R3; try discriminate.
    destruct (forget_inv (w_peek_left z1) y) as (k & Wk); [now rewrite peek_left_same|]. eauto. }
  destruct Ck as (k & y & Ck). pose proof (peek_left_moves _ _ _ _ _ _ S1 Ck Cp) as ->.
  destruct (pop_left_moves _ _ _ _ _ S1 Cp) as (Mv & _). cbn [s1 s_left s_lnew toll Nat.eqb] in Mv.
  assert (m = n + 3) as -> by lia.
  exists t, z, [OutElt (Some e)], z1. split; [exact H|]. split; [rewrite <- (map_length fst), L, app_length, repeat_length; cbn; lia|].
  split; [exact F|]. split; [exact R1|]. split; [lia|].
  induction k as [|k (os' & IH)]; cbn [repeat w_run]; [eexists; reflexivity|].
  eexists. replace (S k * (n + 3)) with (n + 3 + 0 + (k * (n + 3) + 0)) by lia. eapply wbind_run; [eapply wbind_run; [exact Ck|reflexivity]|].
  cbn beta iota. eapply wbind_run; [exact IH|]. reflexivity.
Qed.
