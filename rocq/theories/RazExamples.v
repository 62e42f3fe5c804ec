(** * Concrete Raz values used by the Examples beside the property theorems. *)

From Verif Require Import Base Spec SpecRaz StackModel AStackModel StackScripts LevelTreeModel
  TreeCursorModel RazMetaModel RazModel TreeSpec RazScripts RazReach.

#[local] Open Scope N_scope.
Bind Scope N_scope with level.

Definition nm_a : name := NStr "a".
Definition nm_b : name := NStr "b".
Definition in_tree (n : name) : name := NPair n (NStr "tree").

(** 1 2 |a:2| 3 |_:3| 4 5 |b:1| 6, cursor between 3's archive point and 4 *)
Definition ex_ops : list (zop nat) :=
  [OPushL 1; OPushL 2; OArchL 2 (Some nm_a); OPushL 3; OArchL 3 None;
   OPushR 6; OArchR 1 (Some nm_b); OPushR 5; OPushR 4]%nat.
Lemma ex_ops_ok : Forall zop_ok ex_ops.
Proof. repeat constructor; simpl; lia. Qed.

Definition run_raz {M} {RM : RazMeta nat M} (ops : list (zop nat)) : raz nat M :=
  match zrun raz_new ops with Ok (_, z) => z | _ => raz_new end.
Definition raz_to_tree {M} {RM : RazMeta nat M} (z : raz nat M) : raz_tree nat M :=
  match unfocus z with Ok t => t | _ => RazTree (from_none 0 None) None end.

Definition ex_c : raz nat count := Eval vm_compute in run_raz ex_ops.
Definition ex_n : raz nat names := Eval vm_compute in run_raz ex_ops.
Definition ex_u : raz nat unit := Eval vm_compute in run_raz ex_ops.
Definition ex_tc : raz_tree nat count := Eval vm_compute in raz_to_tree ex_c.
Definition ex_tn : raz_tree nat names := Eval vm_compute in raz_to_tree ex_n.
Definition ex_tu : raz_tree nat unit := Eval vm_compute in raz_to_tree ex_u.

Lemma ex_c_reached : raz_reached false ex_c.
Proof. eapply zrun_reached; [exact ex_ops_ok|apply RR_new|vm_compute; reflexivity]. Qed.
Lemma ex_n_reached : raz_reached false ex_n.
Proof. eapply zrun_reached; [exact ex_ops_ok|apply RR_new|vm_compute; reflexivity]. Qed.
Lemma ex_u_reached : raz_reached false ex_u.
Proof. eapply zrun_reached; [exact ex_ops_ok|apply RR_new|vm_compute; reflexivity]. Qed.
Lemma ex_tc_reached : tree_reached false ex_tc.
Proof. eapply TR_unfocus; [exact ex_c_reached|vm_compute; reflexivity]. Qed.
Lemma ex_tn_reached : tree_reached false ex_tn.
Proof. eapply TR_unfocus; [exact ex_n_reached|vm_compute; reflexivity]. Qed.
Lemma ex_tu_reached : tree_reached false ex_tu.
Proof. eapply TR_unfocus; [exact ex_u_reached|vm_compute; reflexivity]. Qed.

(** 1 |a:2| 2 |_:3| 3 |a:2| 4 : the name a twice, neither at the top *)
Definition dup_ops : list (zop nat) :=
  [OPushL 1; OArchL 2 (Some nm_a); OPushL 2; OArchL 3 None; OPushL 3; OArchL 2 (Some nm_a); OPushL 4]%nat.
Definition dup_tn : raz_tree nat names := Eval vm_compute in raz_to_tree (run_raz dup_ops).
Lemma dup_tn_reached : tree_reached false dup_tn.
Proof.
  refine (TR_unfocus _ _ _ _ (run_raz dup_ops) _ _ _); [|vm_compute; reflexivity].
  eapply (zrun_reached dup_ops raz_new); [|apply RR_new|vm_compute; reflexivity].
  repeat constructor; simpl; lia.
Qed.
