(** * Vocabulary for statements about memoised computations that read and write any cell. *)

From Verif Require Import Base Spec AStackModel RazMetaModel RazModel RazScripts StoreModel IncFromModel.

(** One run: the store and the value it was given, what it returned, the store it left and
    the calls whose body ran. *)
Record cevent (T A K X Y : Type) : Type := CEvent {
  c_before : store T A;
  c_given : X;
  c_result : Y;
  c_after : store T A;
  c_entered : list K
}.
Arguments CEvent {T A K X Y} c_before c_given c_result c_after c_entered.
Arguments c_before {T A K X Y} _.
Arguments c_given {T A K X Y} _.
Arguments c_result {T A K X Y} _.
Arguments c_after {T A K X Y} _.
Arguments c_entered {T A K X Y} _.

(** Run after run with one table, the latest first. What happened to the store between the
    runs is left open. *)
Inductive cran {T A K R X Y} (run : nat -> X -> vm T A K R Y) : list (cevent T A K X Y) -> ctab T A K R -> Prop :=
| cran_none : cran run [] no_centries
| cran_more h tab k st x y st' tr tab' lg :
    cran run h tab -> run k x st tab = Ok (y, st', tr, tab', lg) -> cran run (CEvent st x y st' lg :: h) tab'.

(** Between the runs nobody else wrote in this namespace. *)
Fixpoint cundisturbed {T A K X Y} (p : list name) (h : list (cevent T A K X Y)) : Prop :=
  match h with
  | e :: r =>
      cundisturbed p r /\
      match r with
      | e' :: _ => forall n, c_before e (p, n) = c_after e' (p, n)
      | [] => True
      end
  | [] => True
  end.

(** A stack that can be converted to a tree with which everything works: made by operations,
    levels from [lo] below [hi], with elements on top of the last archive point. *)
Definition ready {E} (lo hi : level) (s : astack E level) (l : list (atom E level)) : Prop :=
  exists ops, stack_for lo hi ops s /\ snd (sp_run [] ops) = l.
