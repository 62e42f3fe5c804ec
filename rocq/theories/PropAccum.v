(** * Accumulators are plain stacks (C46). *)

From Verif Require Import Base StackModel AStackModel LevelTreeModel TreeCursorModel RazMetaModel
  RazModel AccumModel AccumScripts AccumProofs.

(** C46. Every sequence of pushes, pops and archive calls on a new accumulator
    returns what a plain stack returns, without panic. The list types take all
    levels and names; the archive stacks too; a Raz needs levels of at least 1. *)
Theorem C46_list : forall (T : Type) (ops : list (iop T)),
  exists a, irun (list_iface T) if_new ops = Ok (lifo [] ops, a).
Proof. intros T ops. apply (list_lifo T). apply Forall_forall. intros [x| |m] _; exact I. Qed.
Print Assumptions C46_list.

Theorem C46_vec_list : forall (T : Type) (ops : list (iop T)),
  exists a, irun (vl_iface T) if_new ops = Ok (lifo [] ops, a).
Proof. intros T ops. apply (vl_lifo T). apply Forall_forall. intros [x| |m] _; exact I. Qed.
Print Assumptions C46_vec_list.

Theorem C46_vec : forall (T : Type) (ops : list (iop T)),
  exists a, irun (vec_iface T) if_new ops = Ok (lifo [] ops, a).
Proof. intros T ops. apply (vec_lifo T). apply Forall_forall. intros [x| |m] _; exact I. Qed.
Print Assumptions C46_vec.

Theorem C46_archive_stack : forall (T : Type) (ops : list (iop T)),
  (exists a, irun (astack_iface T) if_new ops = Ok (lifo [] ops, a)) /\
  (exists a, irun (astack_unit_iface T) if_new ops = Ok (lifo [] ops, a)).
Proof.
  intros T ops. split; [apply (as_lifo T)|apply (as_unit_lifo T)]; apply Forall_forall; intros [x| |m] _; exact I.
Qed.
Print Assumptions C46_archive_stack.

Theorem C46_raz : forall (T M : Type) (RM : RazMeta T M) (ops : list (iop T)),
  Forall (fun o => match o with IArchive m => (1 <= fst m)%N | _ => True end) ops ->
  exists a, irun (raz_iface T M RM) if_new ops = Ok (lifo [] ops, a).
Proof. intros T M RM ops. exact (raz_lifo T M RM ops). Qed.
Print Assumptions C46_raz.

(** Pops across several archive points, down to the empty accumulator and beyond. *)
Definition c46_ops : list (iop nat) :=
  [IPush 1; IArchive (2, Some (NStr "a"))%N; IArchive (1, None)%N; IPush 2; IPush 3; IArchive (3, Some NUnit)%N;
   IPop; IPop; IPush 4; IPop; IPop; IPop; IPush 5; IPop].
Example C46_case :
  map fst (match irun (list_iface nat) if_new c46_ops with Ok (l, _) => [(l, 0)] | _ => [] end) =
    [[None; None; None; None; None; None; Some (Some 3); Some (Some 2); None; Some (Some 4); Some (Some 1); Some None; None; Some (Some 5)]] /\
  map fst (match irun (vl_iface nat) if_new c46_ops with Ok (l, _) => [(l, 0)] | _ => [] end) =
    [[None; None; None; None; None; None; Some (Some 3); Some (Some 2); None; Some (Some 4); Some (Some 1); Some None; None; Some (Some 5)]] /\
  map fst (match irun (raz_iface nat count _) if_new c46_ops with Ok (l, _) => [(l, 0)] | _ => [] end) =
    [[None; None; None; None; None; None; Some (Some 3); Some (Some 2); None; Some (Some 4); Some (Some 1); Some None; None; Some (Some 5)]].
Proof. vm_compute. repeat split. Qed.
