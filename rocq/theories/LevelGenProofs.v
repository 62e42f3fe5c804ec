(** * Level generation: range and distribution. *)

From Coq Require Import FinFun.
From Verif Require Import Base LevelGenModel.

#[local] Open Scope N_scope.

Lemma pos_zeros_spec p : exists m, Npos p = 2 ^ pos_zeros p * (2 * m + 1).
Proof.
  induction p as [p IH|p IH|].
  - exists (Npos p). cbn [pos_zeros]. rewrite N.pow_0_r. lia.
  - destruct IH as (m & E). exists m. cbn [pos_zeros]. rewrite N.pow_succ_r' . 
    replace (Npos p~0) with (2 * Npos p) by lia. rewrite E. lia.
  - exists 0. reflexivity.
Qed.

(** The decomposition into a power of two and an odd number is unique. *)
Lemma odd_part_unique a b m n : 2 ^ a * (2 * m + 1) = 2 ^ b * (2 * n + 1) -> a = b /\ m = n.
Proof.
  revert b. induction a as [|a IH] using N.peano_ind; intros b H.
  - destruct (N.eq_dec b 0) as [->|B]; [rewrite N.pow_0_r in H; lia|].
    rewrite <- (N.succ_pred b B), N.pow_succ_r', N.pow_0_r in H. exfalso.
    assert (E : 2 * m + 1 = 2 * (2 ^ N.pred b * (2 * n + 1))) by lia. clear -E. lia.
  - destruct (N.eq_dec b 0) as [->|B].
    { rewrite N.pow_succ_r', N.pow_0_r in H. exfalso.
      assert (E : 2 * n + 1 = 2 * (2 ^ a * (2 * m + 1))) by lia. clear -E. lia. }
    rewrite <- (N.succ_pred b B), !N.pow_succ_r' in H. destruct (IH (N.pred b)) as [-> ->]; [lia|]. split; lia.
Qed.

Lemma zeros_of_odd a m : trailing_zeros (2 ^ a * (2 * m + 1)) = a.
Proof.
  assert (P : 2 ^ a <> 0) by (apply N.pow_nonzero; lia).
  destruct (2 ^ a * (2 * m + 1)) as [|p] eqn:E; [nia|]. cbn [trailing_zeros].
  destruct (pos_zeros_spec p) as (n & F). rewrite F in E. now destruct (odd_part_unique _ _ _ _ E).
Qed.

Lemma odd_form n : n <> 0 -> exists a m, n = 2 ^ a * (2 * m + 1).
Proof. destruct n as [|p]; [congruence|]. intros _. destruct (pos_zeros_spec p) as (m & E). eauto. Qed.

(** [n < 2^64]: a 64-bit value. *)
Lemma level_of_odd a m : 2 ^ a * (2 * m + 1) < 2 ^ 64 -> gen_branch_level (2 ^ a * (2 * m + 1)) = a + 1.
Proof.
  intros H. assert (Ha : a < 64).
  { apply (N.pow_lt_mono_r_iff 2); [lia|]. assert (2 ^ a <> 0) by (apply N.pow_nonzero; lia). nia. }
  unfold gen_branch_level, shl1. destruct (N.eq_dec a 63) as [->|N63].
  - assert (m = 0) as ->. { change (2 ^ 64) with (2 ^ 63 * 2) in H. nia. }
    reflexivity.
  - assert (B : 2 * (2 ^ a * (2 * m + 1)) = 2 ^ (a + 1) * (2 * m + 1)). { replace (a + 1) with (N.succ a) by lia; rewrite N.pow_succ_r'. lia. }
    rewrite B. clear B.
    destruct (N.lt_ge_cases (2 ^ (a + 1) * (2 * m + 1)) (2 ^ 64)) as [L|G].
    + rewrite N.mod_small by exact L. apply zeros_of_odd.
    + (* the top bit is lost: the odd part loses its top bit *)
      assert (Sp : 2 ^ 64 = 2 ^ (a + 1) * (2 * 2 ^ (62 - a))).
      { replace (2 * 2 ^ (62 - a)) with (2 ^ (63 - a)).
        - rewrite <- N.pow_add_r. f_equal. lia.
        - rewrite <- N.pow_succ_r'. f_equal. lia. }
      set (q := 2 ^ (62 - a)) in *.
      assert (Lq : 2 ^ (a + 1) * (2 * m + 1) < 2 * 2 ^ 64). { replace (a + 1) with (N.succ a) by lia; rewrite N.pow_succ_r'. lia. }
      assert (P : 2 ^ (a + 1) <> 0) by (apply N.pow_nonzero; lia).
      assert (M : (2 ^ (a + 1) * (2 * m + 1)) mod 2 ^ 64 = 2 ^ (a + 1) * (2 * (m - q) + 1)).
      { symmetry. apply (N.mod_unique _ _ 1). 
        - rewrite Sp in *. nia.
        - rewrite Sp in *. assert (q <= m) by nia. nia. }
      rewrite M. apply zeros_of_odd.
Qed.

Theorem gen_level_range n : n < 2 ^ 64 ->
  1 <= gen_branch_level n <= 64 /\ negbin_rand n = gen_branch_level n /\
  (gen_branch_level n = 64 <-> n = 0 \/ n = 2 ^ 63).
Proof.
  intros H. assert (R : 1 <= gen_branch_level n <= 64 /\ (gen_branch_level n = 64 <-> n = 0 \/ n = 2 ^ 63)).
  { destruct (N.eq_dec n 0) as [->|N0].
    - split; [vm_compute; split; discriminate|]. split; [now left|reflexivity].
    - destruct (odd_form n N0) as (a & m & ->). rewrite (level_of_odd a m H).
      assert (Ha : a < 64).
      { apply (N.pow_lt_mono_r_iff 2); [lia|]. assert (2 ^ a <> 0) by (apply N.pow_nonzero; lia). nia. }
      split; [lia|]. split.
      + intros E. assert (a = 63) as -> by lia. right. change (2 ^ 64) with (2 ^ 63 * 2) in H.
        assert (m = 0) as -> by nia. lia.
      + intros [E|E]; [congruence|]. assert (F : 2 ^ a * (2 * m + 1) = 2 ^ 63 * (2 * 0 + 1)) by lia.
        destruct (odd_part_unique _ _ _ _ F). lia. }
  destruct R as [R1 R2]. split; [exact R1|]. split; [|exact R2].
  unfold negbin_rand, gen_branch_level in *. apply N.mod_small. lia.
Qed.

Theorem gen_level_count k : 1 <= k -> k < 64 ->
  exists l : list N, NoDup l /\ N.of_nat (length l) = 2 ^ (64 - k) /\
    forall n, In n l <-> n < 2 ^ 64 /\ gen_branch_level n = k.
Proof.
  intros K1 K2. set (f := fun i : nat => 2 ^ (k - 1) * (2 * N.of_nat i + 1)).
  exists (map f (seq 0 (N.to_nat (2 ^ (64 - k))))).
  assert (Inj : forall i j, f i = f j -> i = j).
  { intros i j E. destruct (odd_part_unique _ _ _ _ E). lia. }
  split; [|split].
  - apply FinFun.Injective_map_NoDup; [exact Inj|apply seq_NoDup].
  - rewrite map_length, seq_length. lia.
  - assert (Sp : 2 ^ 64 = 2 ^ (k - 1) * (2 * 2 ^ (64 - k))).
    { rewrite <- N.pow_succ_r', <- N.pow_add_r. f_equal. lia. }
    assert (P : 2 ^ (k - 1) <> 0) by (apply N.pow_nonzero; lia).
    intros n. rewrite in_map_iff. split.
    + intros (i & <- & Hi). apply in_seq in Hi.
      assert (L : f i < 2 ^ 64). { unfold f. rewrite Sp. nia. }
      split; [exact L|]. unfold f in *. rewrite level_of_odd by exact L. lia.
    + intros [L E]. destruct (N.eq_dec n 0) as [->|N0].
      { exfalso. change (gen_branch_level 0) with 64 in E. lia. }
      destruct (odd_form n N0) as (a & m & ->). rewrite (level_of_odd a m L) in E.
      assert (a = k - 1) as -> by lia. exists (N.to_nat m). unfold f. rewrite N2Nat.id. split; [reflexivity|].
      apply in_seq. rewrite Sp in L. nia.
Qed.
