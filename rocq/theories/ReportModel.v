(** * Model of the reports printed by the experiments of eval/examples.

    Times are whole numbers of nanoseconds. The division by 1_000_000 and the rounding
    of [f64] are not modelled: sums and comparisons are exact. Text formatting and the
    plot scripts are not modelled. *)

From Coq Require Import ZArith.
From Verif Require Import Base EvalModel.

(** [v[i]]. *)
Definition time_at (v : list Z) (i : nat) : res Z := unwrap "index out of bounds" (nth_error v i).

(** The two vectors of compute times, eval/examples/max.rs:127-134 (the same lines in
    filter.rs:151-158, reverse.rs:151-158, to_string.rs:110-117; adder.rs:338-345 adds the
    times of its two stages first). *)
Definition gather (changes : nat) (comp_non_inc comp_inc : list Z) : res (list Z * list Z) :=
  do ' (_, native, adapton) <- times (S changes)
    (fun st : nat * list Z * list Z =>
       let '(i, native, adapton) := st in
       do nc <- time_at comp_non_inc i;
       do ac <- time_at comp_inc i;
       Ok (S i, native ++ [nc], adapton ++ [ac]))
    (0, [], []);
  Ok (native, adapton).

(** The closure of the fold, max.rs:142-147. *)
Definition cross_step (st : Z * Z * nat) (x : nat * (Z * Z)) : Z * Z * nat :=
  let '(n, a, cross) := st in
  let '(c, (nt, at_)) := x in
  let new_n := (n + nt)%Z in
  let new_a := (a + at_)%Z in
  let new_cross := if (n <? a)%Z && (new_a <=? new_n)%Z then c + 1 else cross in
  (new_n, new_a, new_cross).

(** What is printed, max.rs:135-159: the two initial times, sum and number of the update
    times (their quotient is the average), and the number of changes at the cross over,
    0 for "off chart". *)
Record report : Type := Report {
  native_init : Z;
  adapton_init : Z;
  update_sum : Z;
  update_len : nat;
  crossover : nat
}.

Definition report_of (changes : nat) (comp_non_inc comp_inc : list Z) : res report :=
  do ' (native, adapton) <- gather changes comp_non_inc comp_inc;
  do a0 <- time_at adapton 0;
  do n0 <- time_at native 0;
  let adapton := tl adapton in
  let native := tl native in
  let pairs := combine native adapton in
  let '(_, _, cross) := fold_left cross_step (combine (seq 0 (length pairs)) pairs) (n0, a0, 0) in
  Ok (Report n0 a0 (fold_left Z.add adapton 0%Z) (length adapton) cross).

(** The rows of a data file, max.rs:179-185 (and 188-192; the same loops in the other
    experiments): number of the row, edit times and compute times so far. *)
Definition report_rows (changes : nat) (edits comps : list Z) : res (list (nat * Z * Z)) :=
  do ' (_, _, _, rows) <- times changes
    (fun st : nat * Z * Z * list (nat * Z * Z) =>
       let '(i, e, r, rows) := st in
       do de <- time_at edits i;
       let e := (e + de)%Z in
       do dr <- time_at comps i;
       let r := (r + dr)%Z in
       Ok (S i, e, r, rows ++ [(i, e, r)]))
    (0, 0%Z, 0%Z, []);
  Ok rows.
