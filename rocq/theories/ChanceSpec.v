(** * Averages over random words. *)

From Verif Require Import Base Spec LevelTreeModel LevelGenModel.

#[local] Open Scope N_scope.

(** The sum of [g w] over the words [w] below [b]. *)
Definition sum_below (b : N) (g : N -> N) : N := N.recursion 0 (fun w s => g w + s) b.

(** The sum of [g ws] over all sequences [ws] of [n] words of 64 bits. *)
Fixpoint sum_draws (n : nat) (g : list N -> N) : N :=
  match n with
  | O => g []
  | S n' => sum_below (2 ^ 64) (fun w => sum_draws n' (fun ws => g (w :: ws)))
  end.

(** [ws] is one of these sequences. *)
Definition draws (n : nat) (ws : list N) : Prop := length ws = n /\ Forall (fun w => w < 2 ^ 64) ws.

(** On average over the [(2 ^ 64) ^ n] sequences, [g] is at most [b]. *)
Definition on_average (n : nat) (g : list N -> N) (b : N) : Prop :=
  sum_draws n g <= (2 ^ 64) ^ N.of_nat n * b.

(** The archive points of [l] have the levels generated from the words [ws]. *)
Definition levels_from {E} (l : list (atom E level)) (ws : list N) : Prop :=
  map fst (marks l) = map gen_branch_level ws.

(** The sum of [h l] for [n] levels from [lo] on. *)
Fixpoint over_levels (lo : N) (n : nat) (h : N -> N) : N :=
  match n with
  | O => 0
  | S n' => h lo + over_levels (lo + 1) n' h
  end.
