(** * Model of level generation. The random generator is modelled by the 64-bit
    value it returns. *)

From Verif Require Import Base.

#[local] Open Scope N_scope.

(** [u64::trailing_zeros]: 64 for 0. *)
Fixpoint pos_zeros (p : positive) : N :=
  match p with
  | xO q => N.succ (pos_zeros q)
  | _ => 0
  end.
Definition trailing_zeros (n : N) : N :=
  match n with
  | N0 => 64
  | Npos p => pos_zeros p
  end.

(** [num << 1] on [u64]: the top bit is lost. *)
Definition shl1 (n : N) : N := (2 * n) mod 2 ^ 64.

(** [gen_branch_level], src/level_tree.rs:251-254, for the value [num] drawn.
    [inc_level] (src/lib.rs:55-57) is the same with the thread's generator. *)
Definition gen_branch_level (num : N) : level := trailing_zeros (shl1 num).

(** [NegBin::rand], src/trees.rs:72-81: the same number cast to [u8]. *)
Definition negbin_rand (num : N) : N := trailing_zeros (shl1 num) mod 256.
