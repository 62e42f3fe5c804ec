(** * Shared vocabulary of the model: results, loops, names, levels.

    This file models no Rust function by itself; it fixes how Rust control
    effects are represented (see DESIGN.md, section 2). *)

From Coq Require Export String.
From Coq Require Export Arith NArith Bool List Lia.
Export ListNotations.
Open Scope string_scope.
Open Scope nat_scope.
Open Scope list_scope.

(** ** Results

    [Panic msg]: the Rust code panics here (unwrap, expect, assert, unreachable,
    slice bound, arithmetic overflow in a debug build). [Fuel]: the model's loop
    bound was too small; every theorem concludes [= Ok _] or [= Panic _], so this
    value is excluded by the theorems, not by convention. *)
Inductive res (A : Type) : Type :=
| Ok (a : A)
| Panic (msg : string)
| Fuel.
Arguments Ok {A} a.
Arguments Panic {A} msg.
Arguments Fuel {A}.

Definition bind {A B} (m : res A) (k : A -> res B) : res B :=
  match m with
  | Ok a => k a
  | Panic s => Panic s
  | Fuel => Fuel
  end.

Notation "'do' x <- m ; k" := (bind m (fun x => k))
  (at level 200, x name, m at level 100, k at level 200).
Notation "'do' ' p <- m ; k" := (bind m (fun p => k))
  (at level 200, p pattern, m at level 100, k at level 200).

(** [Option::unwrap] / [expect]. *)
Definition unwrap {A} (msg : string) (o : option A) : res A :=
  match o with
  | Some a => Ok a
  | None => Panic msg
  end.

(** [assert!]. *)
Definition assert (msg : string) (b : bool) : res unit :=
  if b then Ok tt else Panic msg.

(** A [while]/[loop] with explicit state: [inl] continues, [inr] leaves. *)
Fixpoint loop {S R} (fuel : nat) (step : S -> res (S + R)) (s : S) : res R :=
  match fuel with
  | O => Fuel
  | Datatypes.S n =>
      match step s with
      | Ok (inl s') => loop n step s'
      | Ok (inr r) => Ok r
      | Panic m => Panic m
      | Fuel => Fuel
      end
  end.

(** ** Names: [adapton::engine::Name], as a free algebra.

    [name_of_usize], [name_of_string], [name_pair], [name_fork], [name_unit] of
    adapton. Adapton compares names through hashes; the model has no collisions. *)
Inductive name : Type :=
| NUnit
| NStr (s : string)
| NNum (n : N)
| NPair (a b : name)
| NForkL (a : name)
| NForkR (a : name).

Definition name_fork (n : name) : name * name := (NForkL n, NForkR n).

Definition name_eq_dec (a b : name) : {a = b} + {a <> b}.
Proof. decide equality; (apply string_dec || apply N.eq_dec). Defined.

Definition name_eqb (a b : name) : bool :=
  if name_eq_dec a b then true else false.

Definition oname_eq_dec (a b : option name) : {a = b} + {a <> b}.
Proof. decide equality; apply name_eq_dec. Defined.

(** Levels are [u32] in Rust; only compared, never computed with. *)
Definition level := N.

(** [u32::max_value()] and [usize::max_value()] (64-bit target). *)
Definition u32_max : N := 4294967295.
Definition usize_max : N := 18446744073709551615.
Definition usize_mod : N := 18446744073709551616.
