(** * Property C86: the example tree of eval. *)

From Verif Require Import Base Spec SpecRaz StackModel AStackModel StackScripts LevelTreeModel
  TreeCursorModel RazMetaModel RazModel TreeSpec RazView RazScripts SampleModel SampleSpec SampleProofs.

(** For every element type and metadata the example tree is made without a panic, is
    laid out as documented (shape, levels, arrays), and keeps the invariants. *)
Theorem C86_layout : forall (A M : Type) (RM : RazMeta A M) (from : N -> A),
  exists t : raz_tree A M, iraztree_depth_4 from = Ok t /\ tree_reached false t /\ canonical t /\
    unlabelled (drawn_tree t) = unlabelled (documented from) /\
    elts (contents t) = map from [1; 2; 3; 4; 5; 6; 7; 8; 9; 10; 11; 12; 13; 14; 15; 16]%N.
Proof. intros A M RM. exact sample_layout. Qed.
Print Assumptions C86_layout.

(** The labels are the archive names paired with "tree" ... *)
Theorem C86_names : forall (A M : Type) (RM : RazMeta A M) (from : N -> A),
  exists t : raz_tree A M, iraztree_depth_4 from = Ok t /\
    marks (contents t) = map (fun p => (fst p, Some (NPair (NStr (snd p)) (NStr "tree"))))
      [(1%N, "ll"); (4%N, "l"); (2%N, "lr"); (6%N, "rl"); (3%N, "r"); (5%N, "rr"); (4%N, "g")].
Proof. intros A M RM. exact sample_names. Qed.
Print Assumptions C86_names.

(** ... which are not those of the diagram, however the documented labels are read as
    names: the point drawn as [t] is named with "rl", and "rl" is drawn elsewhere. *)
Theorem C86_documented_names_refuted : forall (A M : Type) (RM : RazMeta A M) (from : N -> A),
  exists t : raz_tree A M, iraztree_depth_4 from = Ok t /\
    drawn_tree t <> relabel (fun s => Some (NPair (NStr s) (NStr "tree"))) (documented from) /\
    drawn_tree t <> relabel (fun s => Some (NStr s)) (documented from).
Proof. intros A M RM. exact sample_labels. Qed.
Print Assumptions C86_documented_names_refuted.

Example C86_case : (do t <- iraztree_depth_4 (A := N) (M := count) (fun n => n); Ok (rt_meta t, elts (contents t))) =
  Ok (Count 16, [1; 2; 3; 4; 5; 6; 7; 8; 9; 10; 11; 12; 13; 14; 15; 16]%N).
Proof. vm_compute. reflexivity. Qed.
