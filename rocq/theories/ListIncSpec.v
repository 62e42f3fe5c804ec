(** * Vocabulary for statements about memoised tree_to_list. *)

From Verif Require Import Base StackModel AStackModel LevelTreeModel StoreModel AccumModel ListIncModel.

(** One run: the store of the tree, the cells of accumulators and the value it was given,
    what it returned, the cells it left and the nodes it entered. *)
Record wevent (T A C X Y : Type) : Type := WEvent {
  w_trees : store T A;
  w_before : wcells C;
  w_given : X;
  w_result : Y;
  w_after : wcells C;
  w_entered : list (stree A)
}.
Arguments WEvent {T A C X Y} w_trees w_before w_given w_result w_after w_entered.
Arguments w_trees {T A C X Y} _.
Arguments w_before {T A C X Y} _.
Arguments w_given {T A C X Y} _.
Arguments w_result {T A C X Y} _.
Arguments w_after {T A C X Y} _.
Arguments w_entered {T A C X Y} _.

(** Run after run with one table, the latest first. What happened to the stores between the
    runs is left open. *)
Inductive w_ran {T A C K R X Y} (run : nat -> X -> wm T A C K R Y) : list (wevent T A C X Y) -> wtab A C K R -> Prop :=
| w_ran_none : w_ran run [] no_wentries
| w_ran_more h tab k st cs x y cs' tr tab' lg :
    w_ran run h tab -> run k x st cs tab = Ok (y, cs', tr, tab', lg) -> w_ran run (WEvent st cs x y cs' lg :: h) tab'.

(** Between the runs nobody else wrote accumulators in this namespace. *)
Fixpoint w_undisturbed {T A C X Y} (p : list name) (h : list (wevent T A C X Y)) : Prop :=
  match h with
  | e :: r =>
      w_undisturbed p r /\
      match r with
      | e' :: _ => forall n, w_before e (p, n) = w_after e' (p, n)
      | [] => True
      end
  | [] => True
  end.

(** What accumulators read as. *)
Inductive list_reads {X} (cs : wcells (slist X)) : slist X -> acc_list X -> Prop :=
| list_reads_nil : list_reads cs SLNil LNil
| list_reads_cons x h l : list_reads cs h l -> list_reads cs (SLCons x h) (LCons x l)
| list_reads_name n h l : list_reads cs h l -> list_reads cs (SLName n h) (LName n l)
| list_reads_art a h l : cs a = Some h -> list_reads cs h l -> list_reads cs (SLArt a) (LArt l).
Inductive vlist_reads {X} (cs : wcells (svlist X)) : svlist X -> vec_list X -> Prop :=
| vlist_reads_nil : vlist_reads cs SVNil VNil
| vlist_reads_cons v h l : vlist_reads cs h l -> vlist_reads cs (SVCons v h) (VCons v l)
| vlist_reads_name n h l : vlist_reads cs h l -> vlist_reads cs (SVName n h) (VName n l)
| vlist_reads_art a h l : cs a = Some h -> vlist_reads cs h l -> vlist_reads cs (SVArt a) (VArt l).
Inductive stack_reads {S} (cs : wcells (body S)) : option (shead S) -> stack S -> Prop :=
| stack_reads_none : stack_reads cs None None
| stack_reads_put e h l : stack_reads cs h l -> stack_reads cs (Some (HPut e h)) (Some (Head None e l))
| stack_reads_cell p n e h l : cs (p, n) = Some (e, h) -> stack_reads cs h l ->
    stack_reads cs (Some (HCell (p, n))) (Some (Head (Some n) e l)).
Definition astack_reads {X M} (cs : wcells (body (M * list X))) (h : sastack X M) (s : astack X M) : Prop :=
  sa_current h = current s /\ stack_reads cs (sa_archived h) (archived s).
