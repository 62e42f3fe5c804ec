(** * Specification of the reports of the experiments. *)

From Coq Require Import ZArith List Lia.
Import ListNotations.

(** Total of the first [k] times. *)
Definition spent (v : list Z) (k : nat) : Z := fold_right Z.add 0%Z (firstn k v).

(** Change [c] (from 1) takes the native total from below the incremental total to at
    least it. The first computation is before change 1. *)
Definition overtakes (native inc : list Z) (c : nat) : Prop :=
  1 <= c /\ (spent native c < spent inc c)%Z /\ (spent inc (S c) <= spent native (S c))%Z.

(** [k] is the last overtaking change among the first [m], 0 if there is none. *)
Definition last_overtake (native inc : list Z) (m k : nat) : Prop :=
  k <= m /\ (k = 0 \/ overtakes native inc k) /\
  forall c, k < c -> c <= m -> ~ overtakes native inc c.
