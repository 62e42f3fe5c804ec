(** * Vocabulary for statements about memoised computations that write to the store. *)

From Verif Require Import Base LevelTreeModel StoreModel IncModel IncMapModel.

(** One run: the store and the value it was given, what it returned, the store it left and
    the nodes it entered. *)
Record event (T A X Y : Type) : Type := Event {
  before : store T A;
  given : X;
  result : Y;
  after : store T A;
  entered : list (stree A)
}.
Arguments Event {T A X Y} before given result after entered.
Arguments before {T A X Y} _.
Arguments given {T A X Y} _.
Arguments result {T A X Y} _.
Arguments after {T A X Y} _.
Arguments entered {T A X Y} _.

(** Run after run with one table, the latest first. What happened to the store between the
    runs is left open. *)
Inductive ran {T A K R X Y} (run : nat -> X -> um T A K R Y) : list (event T A X Y) -> itab A K R -> Prop :=
| ran_none : ran run [] no_entries
| ran_more h tab k st x y st' tr tab' lg :
    ran run h tab -> run k x st tab = Ok (y, st', tr, tab', lg) -> ran run (Event st x y st' lg :: h) tab'.

(** Between the runs nobody else wrote in this namespace. *)
Fixpoint undisturbed {T A X Y} (p : list name) (h : list (event T A X Y)) : Prop :=
  match h with
  | e :: r =>
      undisturbed p r /\
      match r with
      | e' :: _ => forall n, before e (p, n) = after e' (p, n)
      | [] => True
      end
  | [] => True
  end.
