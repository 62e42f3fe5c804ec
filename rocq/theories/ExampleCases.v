(** * Concrete trees for the Examples about eval/examples. *)

From Verif Require Import Base Spec SpecRaz StackModel AStackModel StackScripts LevelTreeModel
  TreeCursorModel RazMetaModel RazModel TreeSpec RazScripts RazReach RazExamples.

#[local] Open Scope N_scope.

(** 1 |_:2| 2 |_:2| 3 : two archive points of the same level *)
Definition eq_ops : list (zop nat) := [OPushL 1; OArchL 2 None; OPushL 2; OArchL 2 None; OPushL 3]%nat.
Definition eq_tc : raz_tree nat count := Eval vm_compute in raz_to_tree (run_raz eq_ops).
Lemma eq_tc_reached : tree_reached false eq_tc.
Proof.
  refine (TR_unfocus _ _ _ _ (run_raz eq_ops) _ _ _); [|vm_compute; reflexivity].
  eapply (zrun_reached eq_ops raz_new); [|apply RR_new|vm_compute; reflexivity].
  repeat constructor; simpl; lia.
Qed.

(** The text 23+4+4,23,54,123,5++ with archive points inside and between numbers *)
Definition ad_text : list N := [50;51;43;52;43;52;44;50;51;44;53;52;44;49;50;51;44;53;43;43].
Definition ad_ops : list (zop N) :=
  [OPushL 50; OArchL 1 (Some nm_a); OPushL 51; OPushL 43; OPushL 52; OArchL 3 (Some nm_b); OPushL 43; OPushL 52;
   OPushL 44; OPushL 50; OPushL 51; OArchL 2 None; OPushL 44; OPushL 53; OPushL 52; OPushL 44; OPushL 49;
   OPushL 50; OArchL 1 None; OPushL 51; OPushL 44; OPushL 53; OArchL 1 (Some nm_a); OPushL 43; OPushL 43].
Definition ad_raz : raz N count := Eval vm_compute in match zrun raz_new ad_ops with Ok (_, z) => z | _ => raz_new end.
Definition ad_tc : raz_tree N count := Eval vm_compute in match unfocus ad_raz with Ok t => t | _ => RazTree (from_none 0 None) None end.
Lemma ad_tc_reached : tree_reached false ad_tc.
Proof.
  refine (TR_unfocus _ _ _ _ ad_raz _ _ _); [|vm_compute; reflexivity].
  eapply (zrun_reached ad_ops raz_new); [|apply RR_new|vm_compute; reflexivity].
  repeat constructor; simpl; lia.
Qed.
