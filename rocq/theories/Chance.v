(** * Sums over random words. *)

From Verif Require Import Base BaseFacts Spec LevelTreeModel LevelGenModel LevelGenProofs MemoSpec ChanceSpec.

#[local] Open Scope N_scope.

(** ** Sums below a bound *)
Lemma sum_below_0 g : sum_below 0 g = 0.
Proof. reflexivity. Qed.
Lemma sum_below_succ b g : sum_below (N.succ b) g = g b + sum_below b g.
Proof. unfold sum_below. apply (@N.recursion_succ N eq 0 (fun w s => g w + s)); [reflexivity|]. intros ? ? -> ? ? ->. reflexivity. Qed.
Lemma sum_below_ext b g h : (forall w, w < b -> g w = h w) -> sum_below b g = sum_below b h.
Proof.
  induction b as [|b IH] using N.peano_ind; intros H; [reflexivity|]. rewrite !sum_below_succ, IH, H by (intros; try apply H; lia). reflexivity.
Qed.
Lemma sum_below_le b g h : (forall w, w < b -> g w <= h w) -> sum_below b g <= sum_below b h.
Proof.
  induction b as [|b IH] using N.peano_ind; intros H; [apply N.le_refl|]. rewrite !sum_below_succ.
  assert (sum_below b g <= sum_below b h) by (apply IH; intros; apply H; lia). assert (g b <= h b) by (apply H; lia). lia.
Qed.
Lemma sum_below_const b k : sum_below b (fun _ => k) = b * k.
Proof. induction b as [|b IH] using N.peano_ind; [reflexivity|]. rewrite sum_below_succ, IH. lia. Qed.
Lemma sum_below_add b g h : sum_below b (fun w => g w + h w) = sum_below b g + sum_below b h.
Proof. induction b as [|b IH] using N.peano_ind; [reflexivity|]. rewrite !sum_below_succ, IH. lia. Qed.
Lemma sum_below_mul b k g : sum_below b (fun w => k * g w) = k * sum_below b g.
Proof. induction b as [|b IH] using N.peano_ind; [cbn; lia|]. rewrite !sum_below_succ, IH. lia. Qed.
Lemma sum_below_swap a b g :
  sum_below a (fun x => sum_below b (fun y => g x y)) = sum_below b (fun y => sum_below a (fun x => g x y)).
Proof.
  induction a as [|a IH] using N.peano_ind.
  - rewrite sum_below_0. transitivity (sum_below b (fun _ => 0)); [rewrite sum_below_const; lia|].
    apply sum_below_ext. intros. reflexivity.
  - rewrite sum_below_succ, IH, <- sum_below_add. apply sum_below_ext. intros. now rewrite sum_below_succ.
Qed.
Lemma sum_below_double b g : sum_below (2 * b) g = sum_below b (fun w => g (2 * w)) + sum_below b (fun w => g (2 * w + 1)).
Proof.
  induction b as [|b IH] using N.peano_ind; [reflexivity|].
  replace (2 * N.succ b) with (N.succ (N.succ (2 * b))) by lia. rewrite !sum_below_succ, IH.
  replace (N.succ (2 * b)) with (2 * b + 1) by lia. lia.
Qed.

(** ** Sums over sequences of words *)
Notation P := (2 ^ 64).
#[local] Opaque N.pow.

Lemma draws_cons n w ws : w < P -> draws n ws -> draws (S n) (w :: ws).
Proof. intros H (A & B). split; [cbn; lia|]. now constructor. Qed.
Lemma sum_draws_ext n g h : (forall ws, draws n ws -> g ws = h ws) -> sum_draws n g = sum_draws n h.
Proof.
  revert g h; induction n as [|n IH]; intros g h H; cbn [sum_draws]; [apply H; split; [reflexivity|constructor]|].
  apply sum_below_ext. intros w Hw. apply IH. intros ws D. apply H. now apply draws_cons.
Qed.
Lemma sum_draws_le n g h : (forall ws, draws n ws -> g ws <= h ws) -> sum_draws n g <= sum_draws n h.
Proof.
  revert g h; induction n as [|n IH]; intros g h H; cbn [sum_draws]; [apply H; split; [reflexivity|constructor]|].
  apply sum_below_le. intros w Hw. apply IH. intros ws D. apply H. now apply draws_cons.
Qed.
Lemma sum_draws_add n g h : sum_draws n (fun ws => g ws + h ws) = sum_draws n g + sum_draws n h.
Proof.
  revert g h; induction n as [|n IH]; intros g h; cbn [sum_draws]; [reflexivity|]. rewrite <- sum_below_add.
  apply sum_below_ext. intros w _. apply IH.
Qed.
Lemma sum_draws_mul n k g : sum_draws n (fun ws => k * g ws) = k * sum_draws n g.
Proof.
  revert g; induction n as [|n IH]; intros g; cbn [sum_draws]; [reflexivity|]. rewrite <- sum_below_mul.
  apply sum_below_ext. intros w _. apply IH.
Qed.
Lemma pow_S n : P ^ N.of_nat (S n) = P * P ^ N.of_nat n.
Proof. rewrite Nat2N.inj_succ. apply N.pow_succ_r'. Qed.
Lemma sum_draws_const n k : sum_draws n (fun _ => k) = P ^ N.of_nat n * k.
Proof.
  induction n as [|n IH]; cbn [sum_draws]; [change (N.of_nat 0) with 0; rewrite N.pow_0_r; lia|].
  rewrite IH, sum_below_const, pow_S. lia.
Qed.
Lemma sum_draws_snoc n : forall g, sum_draws (S n) g = sum_below P (fun w => sum_draws n (fun ws => g (ws ++ [w]))).
Proof.
  induction n as [|n IH]; intros g; [reflexivity|].
  change (sum_draws (S (S n)) g) with (sum_below P (fun w => sum_draws (S n) (fun ws => g (w :: ws)))).
  rewrite (sum_below_ext _ _ (fun w => sum_below P (fun v => sum_draws n (fun ws => g (w :: ws ++ [v])))))
    by (intros w _; apply (IH (fun ws => g (w :: ws)))).
  rewrite sum_below_swap. apply sum_below_ext. intros v _. reflexivity.
Qed.
(** A sum over the first [a] words only. *)
Lemma sum_draws_split a b : forall g h,
  sum_draws (a + b) (fun ws => g (firstn a ws) + h (skipn a ws)) =
  P ^ N.of_nat b * sum_draws a g + P ^ N.of_nat a * sum_draws b h.
Proof.
  induction a as [|a IH]; intros g h.
  - cbn [Nat.add firstn skipn sum_draws]. rewrite sum_draws_add, sum_draws_const.
    change (N.of_nat 0) with 0. rewrite N.pow_0_r. lia.
  - cbn [Nat.add sum_draws].
    rewrite (sum_below_ext _ _ (fun w => P ^ N.of_nat b * sum_draws a (fun ws => g (w :: ws)) + P ^ N.of_nat a * sum_draws b h))
      by (intros w _; cbn [firstn skipn]; apply (IH (fun ws => g (w :: ws)) h)).
    rewrite sum_below_add, sum_below_mul, sum_below_const, pow_S. lia.
Qed.

(** ** Levels of random words *)
(** [sum_levels lo n h]: the sum of [2 ^ (64 - l) * h l] for [n] levels from [lo] on. *)
Fixpoint sum_levels (lo : N) (n : nat) (h : N -> N) : N :=
  match n with
  | O => 0
  | S n' => 2 ^ (64 - lo) * h lo + sum_levels (lo + 1) n' h
  end.

Lemma sum_stripped a h : a < 63 ->
  sum_below (2 ^ (64 - a)) (fun v => h (gen_branch_level (2 ^ a * v))) =
  2 ^ (64 - (a + 1)) * h (a + 1) + sum_below (2 ^ (64 - (a + 1))) (fun v => h (gen_branch_level (2 ^ (a + 1) * v))).
Proof.
  intros Ha. replace (2 ^ (64 - a)) with (2 * 2 ^ (64 - (a + 1))) by (rewrite <- N.pow_succ_r'; f_equal; lia).
  rewrite sum_below_double, N.add_comm. f_equal.
  - rewrite <- sum_below_const. apply sum_below_ext. intros v Hv. f_equal. apply level_of_odd.
    assert (Sp : P = 2 ^ a * (2 * 2 ^ (64 - (a + 1)))).
    { rewrite <- N.pow_succ_r', <- N.pow_add_r. f_equal. lia. }
    rewrite Sp. apply N.mul_lt_mono_pos_l; [|lia]. apply N.neq_0_lt_0, N.pow_nonzero. lia.
  - apply sum_below_ext. intros v _. do 2 f_equal. replace (a + 1) with (N.succ a) by lia. rewrite N.pow_succ_r'. lia.
Qed.
Lemma sum_words_upto h n : forall a, a + N.of_nat n = 63 ->
  sum_below (2 ^ (64 - a)) (fun v => h (gen_branch_level (2 ^ a * v))) = sum_levels (a + 1) n h + 2 * h 64.
Proof.
  induction n as [|n IH]; intros a Ha.
  - replace a with 63 by lia. change (64 - 63) with 1. rewrite N.pow_1_r. change 2 with (N.succ (N.succ 0)) at 1.
    rewrite !sum_below_succ, sum_below_0. cbn [sum_levels].
    change (gen_branch_level (2 ^ 63 * N.succ 0)) with 64. change (gen_branch_level (2 ^ 63 * 0)) with 64. lia.
  - rewrite sum_stripped by lia. rewrite (IH (a + 1)) by lia. cbn [sum_levels]. lia.
Qed.
(** Half of the words give level 1, a quarter level 2, ..., two of them level 64. *)
Lemma sum_words h : sum_below P (fun w => h (gen_branch_level w)) = sum_levels 1 63 h + 2 * h 64.
Proof.
  etransitivity; [|exact (sum_words_upto h 63 0 eq_refl)]. change (64 - 0) with 64. apply sum_below_ext.
  intros w _. do 2 f_equal. rewrite N.pow_0_r. lia.
Qed.

(** ** Sequences of levels up to a bound *)
(** The number of words whose level is at most [l]. *)
Definition upto (l : N) : N := if 64 <=? l then P else P - 2 ^ (64 - l).
Definition one (b : bool) : N := if b then 1 else 0.
Lemma upto_0 : upto 0 = 0.
Proof. reflexivity. Qed.
Lemma upto_top l : 64 <= l -> upto l = P.
Proof. intros H. unfold upto. apply N.leb_le in H. now rewrite H. Qed.
Lemma upto_add l : l < 64 -> upto l + 2 ^ (64 - l) = P.
Proof.
  intros H. unfold upto. apply N.leb_gt in H as H'. rewrite H'. assert (2 ^ (64 - l) <= P) by (apply N.pow_le_mono_r; lia). lia.
Qed.
Lemma upto_le l : upto l <= P.
Proof. destruct (N.lt_ge_cases l 64) as [H|H]; [pose proof (upto_add l H); lia|rewrite upto_top by exact H; lia]. Qed.

Lemma sum_levels_one l n : forall lo, lo + N.of_nat n = 64 ->
  sum_levels lo n (fun x => one (x <=? l)) + 2 * one (64 <=? l) =
  if lo <=? l then (if 64 <=? l then 2 ^ (65 - lo) else 2 ^ (65 - lo) - 2 ^ (64 - l)) else 0.
Proof.
  induction n as [|n IH]; intros lo H; cbn [sum_levels].
  - replace lo with 64 by lia. destruct (64 <=? l); reflexivity.
  - rewrite <- N.add_assoc, IH by lia.
    assert (E2 : 2 ^ (65 - lo) = 2 * 2 ^ (64 - lo)) by (rewrite <- N.pow_succ_r'; f_equal; lia).
    replace (65 - (lo + 1)) with (64 - lo) by lia.
    destruct (N.leb_spec lo l), (N.leb_spec (lo + 1) l), (N.leb_spec 64 l); cbn [one]; try lia.
    + assert (2 ^ (64 - l) <= 2 ^ (64 - lo)) by (apply N.pow_le_mono_r; lia). lia.
    + assert (l = lo) as -> by lia. lia.
Qed.
Lemma count_upto l : sum_below P (fun w => one (gen_branch_level w <=? l)) = upto l.
Proof.
  rewrite (sum_words (fun x => one (x <=? l))), sum_levels_one by reflexivity. unfold upto.
  destruct (N.leb_spec 1 l), (N.leb_spec 64 l); try lia; [reflexivity..|].
  replace l with 0 by lia. reflexivity.
Qed.
Lemma one_and a b : one (a && b) = one a * one b.
Proof. now destruct a, b. Qed.
Lemma count_all n l : sum_draws n (fun ws => one (forallb (fun x => x <=? l) (map gen_branch_level ws))) = upto l ^ N.of_nat n.
Proof.
  induction n as [|n IH]; [reflexivity|]. cbn [sum_draws map forallb].
  rewrite (sum_below_ext _ _ (fun w => upto l ^ N.of_nat n * one (gen_branch_level w <=? l))).
  - rewrite sum_below_mul, count_upto, Nat2N.inj_succ, N.pow_succ_r'. lia.
  - intros w _. rewrite <- IH, N.mul_comm, <- sum_draws_mul. apply sum_draws_ext. intros ws _. apply one_and.
Qed.

(** ** What is seen of a sequence of random levels *)
Fixpoint seen_r (ls : list N) : N :=
  match ls with
  | [] => 0
  | m :: r => one (forallb (fun x => x <=? m) r) + seen_r r
  end.
Fixpoint seen_l (top : N) (ls : list N) : N :=
  match ls with
  | [] => 0
  | m :: r => if top <? m then 1 + seen_l m r else seen_l top r
  end.
Lemma seen_r_eq {E} (l : list (atom E level)) : N.of_nat (seen_from_right l) = seen_r (map fst (marks l)).
Proof.
  induction l as [|[e|m n] l IH]; cbn [seen_from_right marks map seen_r fst]; [reflexivity|exact IH|].
  rewrite Nat2N.inj_add, IH. f_equal.
  assert (F : forall k, forallb (fun x => x <=? m) (map fst k) = forallb (fun p : N * option name => fst p <=? m) k)
    by (induction k as [|a k IHk]; cbn [map forallb]; [reflexivity|now rewrite IHk]).
  rewrite F. now destruct (forallb _ _).
Qed.
Lemma seen_l_eq {E} (l : list (atom E level)) : forall top, N.of_nat (seen_from_left top l) = seen_l top (map fst (marks l)).
Proof.
  induction l as [|[e|m n] l IH]; intros top; cbn [seen_from_left marks map seen_l fst]; [reflexivity|apply IH|].
  destruct (top <? m); [rewrite Nat2N.inj_succ, IH; lia|apply IH].
Qed.
Lemma seen_l_snoc m ls : forall top,
  seen_l top (ls ++ [m]) = seen_l top ls + one ((top <? m) && forallb (fun x => x <? m) ls).
Proof.
  induction ls as [|x ls IH]; intros top; cbn [app seen_l forallb].
  - rewrite andb_true_r. now destruct (top <? m).
  - destruct (N.ltb_spec top x) as [H|H]; rewrite IH.
    + destruct (N.ltb_spec x m), (N.ltb_spec top m); cbn [andb one]; lia.
    + destruct (N.ltb_spec x m), (N.ltb_spec top m); cbn [andb one]; lia.
Qed.

Definition total_r (n : nat) : N := sum_draws n (fun ws => seen_r (map gen_branch_level ws)).
Definition total_l (n : nat) : N := sum_draws n (fun ws => seen_l 0 (map gen_branch_level ws)).

Lemma total_r_step n : total_r (S n) = P * total_r n + (sum_levels 1 63 (fun l => upto l ^ N.of_nat n) + 2 * P ^ N.of_nat n).
Proof.
  unfold total_r at 1. cbn [sum_draws map seen_r].
  rewrite (sum_below_ext _ _ (fun w => total_r n + upto (gen_branch_level w) ^ N.of_nat n)).
  - rewrite sum_below_add, sum_below_const, (sum_words (fun l => upto l ^ N.of_nat n)). reflexivity.
  - intros w _. rewrite sum_draws_add, count_all. unfold total_r. lia.
Qed.
Lemma total_l_step n : total_l (S n) =
  P * total_l n + (sum_levels 1 63 (fun l => upto (l - 1) ^ N.of_nat n) + 2 * upto 63 ^ N.of_nat n).
Proof.
  unfold total_l at 1. rewrite sum_draws_snoc.
  rewrite (sum_below_ext _ _ (fun w => total_l n + upto (gen_branch_level w - 1) ^ N.of_nat n)).
  - rewrite sum_below_add, sum_below_const, (sum_words (fun l => upto (l - 1) ^ N.of_nat n)). reflexivity.
  - intros w Hw. pose proof (proj1 (gen_level_range w Hw)) as G.
    rewrite <- count_all. unfold total_l. rewrite <- sum_draws_add. apply sum_draws_ext. intros ws _.
    rewrite map_app. cbn [map]. rewrite seen_l_snoc. f_equal. f_equal.
    destruct (N.ltb_spec 0 (gen_branch_level w)); [|lia]. cbn [andb].
    induction ws as [|v ws IH]; [reflexivity|]. cbn [map forallb]. rewrite IH. f_equal.
    destruct (N.ltb_spec (gen_branch_level v) (gen_branch_level w)), (N.leb_spec (gen_branch_level v) (gen_branch_level w - 1)); lia.
Qed.

Lemma levels_r j n : forall lo, lo + N.of_nat n = 64 ->
  sum_levels lo n (fun l => upto l ^ N.of_nat j) + over_levels lo n (fun l => upto l ^ N.of_nat (S j)) =
  P * over_levels lo n (fun l => upto l ^ N.of_nat j).
Proof.
  induction n as [|n IH]; intros lo H; cbn [sum_levels over_levels]; [lia|]. specialize (IH (lo + 1)).
  rewrite N.mul_add_distr_l, <- IH by lia. rewrite Nat2N.inj_succ, N.pow_succ_r'.
  assert (E : upto lo + 2 ^ (64 - lo) = P) by (apply upto_add; lia). rewrite <- E. lia.
Qed.
Lemma levels_l j n : forall lo, 1 <= lo -> lo + N.of_nat n = 64 ->
  2 * sum_levels lo n (fun l => upto (l - 1) ^ N.of_nat j) + over_levels lo n (fun l => upto (l - 1) ^ N.of_nat (S j)) =
  P * over_levels lo n (fun l => upto (l - 1) ^ N.of_nat j).
Proof.
  induction n as [|n IH]; intros lo H0 H; cbn [sum_levels over_levels]; [lia|].
  assert (IH' := IH (lo + 1) ltac:(lia) ltac:(lia)). rewrite (N.mul_add_distr_l P), <- IH'. rewrite Nat2N.inj_succ, N.pow_succ_r'.
  assert (E : upto (lo - 1) + 2 ^ (64 - (lo - 1)) = P) by (apply upto_add; lia).
  assert (E2 : 2 ^ (64 - (lo - 1)) = 2 * 2 ^ (64 - lo)) by (rewrite <- N.pow_succ_r'; f_equal; lia).
  rewrite <- E, E2. lia.
Qed.

(** Exact values. *)
Lemma total_r_exact n :
  P * (total_r n + over_levels 1 63 (fun l => upto l ^ N.of_nat n)) = P ^ N.of_nat n * (63 * P + 2 * N.of_nat n).
Proof.
  induction n as [|n IH].
  - change (total_r 0) with 0. change (N.of_nat 0) with 0.
    replace (over_levels 1 63 (fun l => upto l ^ 0)) with 63 by reflexivity. rewrite N.pow_0_r. lia.
  - rewrite total_r_step, pow_S. pose proof (levels_r n 63 1 eq_refl) as X.
    set (A := sum_levels 1 63 _) in *. set (B := over_levels 1 63 (fun l => upto l ^ N.of_nat (S n))) in *.
    set (C := over_levels 1 63 (fun l => upto l ^ N.of_nat n)) in *. set (T := total_r n) in *. set (Q := P ^ N.of_nat n) in *.
    replace (P * (P * T + (A + 2 * Q) + B)) with (P * (P * (T + C)) + P * (2 * Q)) by lia. rewrite IH. lia.
Qed.
Lemma total_l_exact n :
  2 * total_l n + over_levels 1 63 (fun l => upto (l - 1) ^ N.of_nat n) + 2 * upto 63 ^ N.of_nat n = 65 * P ^ N.of_nat n.
Proof.
  induction n as [|n IH].
  - reflexivity.
  - rewrite total_l_step, pow_S. pose proof (levels_l n 63 1 (N.le_refl _) eq_refl) as X.
    set (A := sum_levels 1 63 _) in *. set (B := over_levels 1 63 (fun l => upto (l - 1) ^ N.of_nat (S n))) in *.
    set (C := over_levels 1 63 (fun l => upto (l - 1) ^ N.of_nat n)) in *. set (T := total_l n) in *. set (Q := P ^ N.of_nat n) in *.
    rewrite Nat2N.inj_succ, N.pow_succ_r'. set (U := upto 63 ^ N.of_nat n) in *.
    assert (E : upto 63 + 2 = P) by reflexivity. 
    replace (2 * (P * T + (A + 2 * U)) + B + 2 * (upto 63 * U)) with (2 * P * T + (2 * A + B) + 2 * (upto 63 + 2) * U) by lia.
    rewrite X, E. replace (2 * P * T + P * C + 2 * P * U) with (P * (2 * T + C + 2 * U)) by lia. rewrite IH. lia.
Qed.

(** ** Logarithmic bounds *)
(** Bernoulli's inequality. *)
Lemma bernoulli u d n : u + d = P -> P * P ^ N.of_nat n <= P * u ^ N.of_nat n + N.of_nat n * d * P ^ N.of_nat n.
Proof.
  intros E. induction n as [|n IH]; [change (N.of_nat 0) with 0; rewrite !N.pow_0_r; lia|].
  assert (U : u ^ N.of_nat n <= P ^ N.of_nat n) by (apply N.pow_le_mono_l; lia).
  rewrite Nat2N.inj_succ, !N.pow_succ_r'. set (Q := P ^ N.of_nat n) in *. set (V := u ^ N.of_nat n) in *. set (k := N.of_nat n) in *.
  assert (P * (P * Q) <= P * (P * V + k * d * Q)) by (apply N.mul_le_mono_l; exact IH).
  assert (d * V <= d * Q) by (apply N.mul_le_mono_l; exact U).
  assert (P * (P * V) = P * (u * V) + P * (d * V)) by (rewrite <- N.mul_add_distr_l, <- N.mul_add_distr_r, E; reflexivity).
  assert (P * (d * V) <= P * (d * Q)) by (apply N.mul_le_mono_l; assumption).
  replace (N.succ k * d * (P * Q)) with (P * (k * d * Q) + P * (d * Q)) by lia. lia.
Qed.

Lemma over_levels_split h a b : forall lo,
  over_levels lo (a + b) h = over_levels lo a h + over_levels (lo + N.of_nat a) b h.
Proof.
  induction a as [|a IH]; intros lo; cbn [Nat.add over_levels].
  - change (N.of_nat 0) with 0. now rewrite N.add_0_r.
  - rewrite IH. replace (lo + N.of_nat (S a)) with (lo + 1 + N.of_nat a) by lia. lia.
Qed.
Lemma levels_r_low n m : forall lo, lo + N.of_nat m = 64 ->
  N.of_nat m * (P * P ^ N.of_nat n) <=
  P * over_levels lo m (fun l => upto l ^ N.of_nat n) + N.of_nat n * (2 ^ (65 - lo) - 2) * P ^ N.of_nat n.
Proof.
  induction m as [|m IH]; intros lo H; [apply N.le_0_l|]. cbn [over_levels].
  assert (IH' := IH (lo + 1) ltac:(lia)). clear IH.
  assert (B := bernoulli _ _ n (upto_add lo ltac:(lia))).
  assert (E2 : 2 ^ (65 - lo) = 2 * 2 ^ (64 - lo)) by (rewrite <- N.pow_succ_r'; f_equal; lia).
  replace (65 - (lo + 1)) with (64 - lo) in IH' by lia.
  assert (G : 2 ^ 1 <= 2 ^ (64 - lo)) by (apply N.pow_le_mono_r; lia). rewrite N.pow_1_r in G.
  rewrite E2. replace (2 * 2 ^ (64 - lo) - 2) with (2 ^ (64 - lo) + (2 ^ (64 - lo) - 2)) by lia.
  set (d := 2 ^ (64 - lo)) in *. set (e := d - 2) in *. set (Q := P ^ N.of_nat n) in *.
  replace (N.of_nat (S m) * (P * Q)) with (P * Q + N.of_nat m * (P * Q)) by lia. lia.
Qed.
Lemma levels_l_low n m : forall lo, 1 <= lo -> lo + N.of_nat m = 64 ->
  N.of_nat m * (P * P ^ N.of_nat n) <=
  P * over_levels lo m (fun l => upto (l - 1) ^ N.of_nat n) + N.of_nat n * (2 ^ (66 - lo) - 4) * P ^ N.of_nat n.
Proof.
  induction m as [|m IH]; intros lo H0 H; [apply N.le_0_l|]. cbn [over_levels].
  assert (IH' := IH (lo + 1) ltac:(lia) ltac:(lia)). clear IH.
  assert (B := bernoulli _ _ n (upto_add (lo - 1) ltac:(lia))).
  replace (64 - (lo - 1)) with (65 - lo) in B by lia.
  assert (E2 : 2 ^ (66 - lo) = 2 * 2 ^ (65 - lo)) by (rewrite <- N.pow_succ_r'; f_equal; lia).
  replace (66 - (lo + 1)) with (65 - lo) in IH' by lia.
  assert (G : 2 ^ 2 <= 2 ^ (65 - lo)) by (apply N.pow_le_mono_r; lia). change (2 ^ 2) with 4 in G.
  rewrite E2. replace (2 * 2 ^ (65 - lo) - 4) with (2 ^ (65 - lo) + (2 ^ (65 - lo) - 4)) by lia.
  set (d := 2 ^ (65 - lo)) in *. set (e := d - 4) in *. set (Q := P ^ N.of_nat n) in *.
  replace (N.of_nat (S m) * (P * Q)) with (P * Q + N.of_nat m * (P * Q)) by lia. lia.
Qed.

Lemma total_r_bound n L m : (L + m = 63)%nat ->
  P * total_r n <= P ^ N.of_nat n * (N.of_nat L * P + N.of_nat n * 2 ^ (64 - N.of_nat L)).
Proof.
  intros H. pose proof (total_r_exact n) as X. replace 63%nat with (L + m)%nat in X by exact H.
  rewrite over_levels_split in X. assert (Y := levels_r_low n m (1 + N.of_nat L) ltac:(lia)).
  replace (65 - (1 + N.of_nat L)) with (64 - N.of_nat L) in Y by lia.
  assert (G : 2 ^ 1 <= 2 ^ (64 - N.of_nat L)) by (apply N.pow_le_mono_r; lia). rewrite N.pow_1_r in G.
  set (A := over_levels 1 L _) in *. set (B := over_levels (1 + N.of_nat L) m _) in *. set (Q := P ^ N.of_nat n) in *.
  set (d := 2 ^ (64 - N.of_nat L)) in *. set (T := total_r n) in *.
  assert (Z : N.of_nat n * (d - 2) * Q + 2 * N.of_nat n * Q = N.of_nat n * d * Q).
  { replace d with (d - 2 + 2) at 2 by lia. set (e := d - 2). lia. }
  assert (K : 63 * P = N.of_nat L * P + N.of_nat m * P) by (rewrite <- N.mul_add_distr_r; f_equal; lia). rewrite K in X. clear K.
  set (p := P) in *. nia.
Qed.
Lemma total_l_bound n L m : (L + m = 63)%nat ->
  2 * (P * total_l n) <= P ^ N.of_nat n * (N.of_nat L * P + N.of_nat n * 2 ^ (65 - N.of_nat L)).
Proof.
  intros H. pose proof (total_l_exact n) as X. replace 63%nat with (L + m)%nat in X by exact H.
  rewrite over_levels_split in X. assert (Y := levels_l_low n m (1 + N.of_nat L) ltac:(lia) ltac:(lia)).
  assert (B63 := bernoulli _ _ n (upto_add 63 eq_refl)). change (2 ^ (64 - 63)) with 2 in B63.
  replace (66 - (1 + N.of_nat L)) with (65 - N.of_nat L) in Y by lia.
  assert (G : 2 ^ 2 <= 2 ^ (65 - N.of_nat L)) by (apply N.pow_le_mono_r; lia). change (2 ^ 2) with 4 in G.
  set (A := over_levels 1 L _) in *. set (B := over_levels (1 + N.of_nat L) m _) in *. set (Q := P ^ N.of_nat n) in *.
  set (d := 2 ^ (65 - N.of_nat L)) in *. set (T := total_l n) in *. set (U := upto 63 ^ N.of_nat n) in *.
  assert (Z : N.of_nat n * (d - 4) * Q + 4 * N.of_nat n * Q = N.of_nat n * d * Q).
  { replace d with (d - 4 + 4) at 2 by lia. set (e := d - 4). lia. }
  assert (K : 65 * (P * Q) = N.of_nat L * (P * Q) + N.of_nat m * (P * Q) + 2 * (P * Q)) by (rewrite <- !N.mul_add_distr_r; f_equal; lia).
  assert (X' : P * (2 * T + (A + B) + 2 * U) = 65 * (P * Q)) by (rewrite X; lia).
  rewrite K in X'. clear K X. set (p := P) in *. nia.
Qed.

Lemma total_r_log n : N.of_nat n < 2 ^ 63 -> total_r n <= P ^ N.of_nat n * (N.log2 (N.of_nat n) + 2).
Proof.
  intros H. destruct n as [|n']; [cbn; lia|]. set (n := S n') in *.
  destruct (N.log2_spec (N.of_nat n)) as [_ G]; [lia|].
  assert (L63 : N.log2 (N.of_nat n) < 63) by (apply N.log2_lt_pow2; lia).
  set (L := N.to_nat (N.succ (N.log2 (N.of_nat n)))). assert (EL : N.of_nat L = N.succ (N.log2 (N.of_nat n))) by (unfold L; lia).
  assert (Bd := total_r_bound n L (63 - L) ltac:(lia)). rewrite EL in Bd.
  assert (Y : N.of_nat n * 2 ^ (64 - N.succ (N.log2 (N.of_nat n))) <= P).
  { apply N.lt_le_incl. replace P with (2 ^ N.succ (N.log2 (N.of_nat n)) * 2 ^ (64 - N.succ (N.log2 (N.of_nat n)))) at 1
      by (rewrite <- N.pow_add_r; f_equal; lia).
    apply N.mul_lt_mono_pos_r; [|exact G]. apply N.neq_0_lt_0, N.pow_nonzero. lia. }
  apply (N.mul_le_mono_pos_l _ _ P); [reflexivity|]. etransitivity; [exact Bd|].
  set (Q := P ^ N.of_nat n) in *. set (k := N.log2 (N.of_nat n)) in *. set (y := N.of_nat n * 2 ^ (64 - N.succ k)) in *.
  replace (P * (Q * (k + 2))) with (Q * (N.succ k * P + P)) by lia. apply N.mul_le_mono_l. lia.
Qed.
Lemma total_l_log n : N.of_nat n < 2 ^ 63 -> 2 * total_l n <= P ^ N.of_nat n * (N.log2 (N.of_nat n) + 3).
Proof.
  intros H. destruct n as [|n']; [cbn; lia|]. set (n := S n') in *.
  destruct (N.log2_spec (N.of_nat n)) as [_ G]; [lia|].
  assert (L63 : N.log2 (N.of_nat n) < 63) by (apply N.log2_lt_pow2; lia).
  set (L := N.to_nat (N.succ (N.log2 (N.of_nat n)))). assert (EL : N.of_nat L = N.succ (N.log2 (N.of_nat n))) by (unfold L; lia).
  assert (Bd := total_l_bound n L (63 - L) ltac:(lia)). rewrite EL in Bd.
  assert (Y : N.of_nat n * 2 ^ (65 - N.succ (N.log2 (N.of_nat n))) <= 2 * P).
  { apply N.lt_le_incl. replace (2 * P) with (2 ^ N.succ (N.log2 (N.of_nat n)) * 2 ^ (65 - N.succ (N.log2 (N.of_nat n)))) at 1
      by (rewrite <- N.pow_add_r, <- N.pow_succ_r'; f_equal; lia).
    apply N.mul_lt_mono_pos_r; [|exact G]. apply N.neq_0_lt_0, N.pow_nonzero. lia. }
  apply (N.mul_le_mono_pos_l _ _ P); [reflexivity|]. rewrite N.mul_assoc, (N.mul_comm P 2), <- N.mul_assoc. etransitivity; [exact Bd|].
  set (Q := P ^ N.of_nat n) in *. set (k := N.log2 (N.of_nat n)) in *. set (y := N.of_nat n * 2 ^ (65 - N.succ k)) in *.
  replace (P * (Q * (k + 3))) with (Q * (N.succ k * P + 2 * P)) by lia. apply N.mul_le_mono_l. lia.
Qed.

Lemma sum_draws_log a b k (g : list N -> N) : N.of_nat a < 2 ^ 63 -> N.of_nat b < 2 ^ 63 ->
  (forall ws, draws (a + b) ws -> g ws <=
    k + (seen_r (map gen_branch_level (firstn a ws)) + seen_l 0 (map gen_branch_level (skipn a ws)))) ->
  on_average (a + b) g (k + N.log2 (N.of_nat a) + N.log2 (N.of_nat b) + 4).
Proof.
  intros Ha Hb H. unfold on_average. etransitivity; [apply sum_draws_le; exact H|].
  rewrite sum_draws_add, sum_draws_const.
  rewrite (sum_draws_split a b (fun ws => seen_r (map gen_branch_level ws)) (fun ws => seen_l 0 (map gen_branch_level ws))).
  fold (total_r a). fold (total_l b). pose proof (total_r_log a Ha) as A. pose proof (total_l_log b Hb) as B.
  rewrite Nat2N.inj_add, N.pow_add_r.
  apply (N.mul_le_mono_l _ _ (P ^ N.of_nat b)) in A. apply (N.mul_le_mono_l _ _ (P ^ N.of_nat a)) in B.
  set (x := P ^ N.of_nat a) in *. set (y := P ^ N.of_nat b) in *. set (la := N.log2 (N.of_nat a)) in *. set (lb := N.log2 (N.of_nat b)) in *.
  set (R := total_r a) in *. set (T := total_l b) in *.
  replace (x * y * (k + la + lb + 4)) with (x * y * k + y * (x * (la + 2)) + x * (y * (lb + 2))) by lia.
  assert (x * (2 * T) <= x * (2 * (y * (lb + 2)))).
  { etransitivity; [exact B|]. apply N.mul_le_mono_l. rewrite N.mul_assoc, (N.mul_comm 2 y), <- N.mul_assoc. apply N.mul_le_mono_l. lia. }
  lia.
Qed.

Lemma average_twice n c (g h : list N -> N) b : (forall ws, draws n ws -> g ws <= c + 2 * h ws) ->
  on_average n h b -> on_average n g (c + 2 * b).
Proof.
  unfold on_average. intros H A. etransitivity; [apply sum_draws_le; exact H|].
  rewrite sum_draws_add, sum_draws_const, sum_draws_mul. lia.
Qed.

(** ** For sequences with archive points *)
Section Points.
Context {E : Type}.
Implicit Types (l : list (atom E level)).

Lemma seen_right_exact n (l : list N -> list (atom E level)) : (forall ws, draws n ws -> levels_from (l ws) ws) ->
  P * (sum_draws n (fun ws => N.of_nat (seen_from_right (l ws))) +
       over_levels 1 63 (fun k => (P - 2 ^ (64 - k)) ^ N.of_nat n)) =
  P ^ N.of_nat n * (63 * P + 2 * N.of_nat n).
Proof.
  intros H. assert (S : sum_draws n (fun ws => N.of_nat (seen_from_right (l ws))) = total_r n).
  { apply sum_draws_ext. intros ws D. rewrite seen_r_eq. now rewrite (H ws D). }
  rewrite S. exact (total_r_exact n).
Qed.
Lemma seen_left_exact n (l : list N -> list (atom E level)) : (forall ws, draws n ws -> levels_from (l ws) ws) ->
  2 * sum_draws n (fun ws => N.of_nat (seen_from_left 0 (l ws))) +
    over_levels 1 63 (fun k => (P - 2 ^ (65 - k)) ^ N.of_nat n) + 2 * (P - 2) ^ N.of_nat n =
  65 * P ^ N.of_nat n.
Proof.
  intros H. assert (S : sum_draws n (fun ws => N.of_nat (seen_from_left 0 (l ws))) = total_l n).
  { apply sum_draws_ext. intros ws D. rewrite seen_l_eq. now rewrite (H ws D). }
  rewrite S. exact (total_l_exact n).
Qed.
Lemma seen_right_log n (l : list N -> list (atom E level)) : (forall ws, draws n ws -> levels_from (l ws) ws) ->
  N.of_nat n < 2 ^ 63 ->
  on_average n (fun ws => N.of_nat (seen_from_right (l ws))) (N.log2 (N.of_nat n) + 2).
Proof.
  intros H Hn. unfold on_average. etransitivity; [|exact (total_r_log n Hn)]. apply sum_draws_le. intros ws D.
  rewrite seen_r_eq, (H ws D). apply N.le_refl.
Qed.
Lemma seen_left_log n (l : list N -> list (atom E level)) : (forall ws, draws n ws -> levels_from (l ws) ws) ->
  N.of_nat n < 2 ^ 63 ->
  on_average n (fun ws => 2 * N.of_nat (seen_from_left 0 (l ws))) (N.log2 (N.of_nat n) + 3).
Proof.
  intros H Hn. unfold on_average. rewrite sum_draws_mul. etransitivity; [|exact (total_l_log n Hn)].
  apply N.mul_le_mono_l, sum_draws_le. intros ws D. rewrite seen_l_eq, (H ws D). apply N.le_refl.
Qed.
Lemma seen_both_log a b k (g : list N -> N) : N.of_nat a < 2 ^ 63 -> N.of_nat b < 2 ^ 63 ->
  (forall ws, draws (a + b) ws -> exists pre post : list (atom E level),
    levels_from pre (firstn a ws) /\ levels_from post (skipn a ws) /\
    g ws <= k + (N.of_nat (seen_from_right pre) + N.of_nat (seen_from_left 0 post))) ->
  on_average (a + b) g (k + N.log2 (N.of_nat a) + N.log2 (N.of_nat b) + 4).
Proof.
  intros Ha Hb H. apply sum_draws_log; [exact Ha|exact Hb|]. intros ws D.
  destruct (H ws D) as (pre & post & A & B & G). now rewrite seen_r_eq, seen_l_eq, A, B in G.
Qed.
End Points.
