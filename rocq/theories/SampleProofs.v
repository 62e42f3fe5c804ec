(** * Proofs about the example tree. *)

From Verif Require Import Base Spec SpecRaz StackModel AStackModel StackScripts LevelTreeModel
  TreeCursorModel RazMetaModel RazModel TreeSpec RazView RazScripts RazReach SampleModel SampleSpec.

Section Sample.
Context {A M : Type} {RM : RazMeta A M}.

Lemma sample_value (from : N -> A) : exists t : raz_tree A M, iraztree_depth_4 from = Ok t /\
  drawn_tree t = relabel (fun s => Some (NPair (NStr s) (NStr "tree"))) 
   (let arr a b := Array [from a; from b] in
    Point "rl" 6%N
    (Point "l" 4%N (Point "ll" 1%N (arr 1 2) (arr 3 4)) (Point "lr" 2%N (arr 5 6) (arr 7 8)))
    (Point "rr" 5%N (Point "r" 3%N (arr 9 10) (arr 11 12)) (Point "g" 4%N (arr 13 14) (arr 15 16))))%N /\
  elts (contents t) = map from [1; 2; 3; 4; 5; 6; 7; 8; 9; 10; 11; 12; 13; 14; 15; 16]%N /\
  marks (contents t) = map (fun p => (fst p, Some (NPair (NStr (snd p)) (NStr "tree"))))
      [(1%N, "ll"); (4%N, "l"); (2%N, "lr"); (6%N, "rl"); (3%N, "r"); (5%N, "rr"); (4%N, "g")] /\
  oconventional (rt_tree t).
Proof.
  eexists. split; [vm_compute; reflexivity|]. split; [reflexivity|]. split; [reflexivity|].
  split; [reflexivity|]. cbn. repeat split; try reflexivity; discriminate.
Qed.

Lemma push_reached (z : raz A M) a : raz_reached false z -> raz_reached false (snd (push_left z a)).
Proof. intros R. exact (RR_step false A M RM z (OPushL a) _ _ R I eq_refl). Qed.
Lemma part_reached (z : raz A M) a b lev nm : (1 <= lev)%N -> raz_reached false z ->
  raz_reached false (sample_part z a b lev nm).
Proof.
  intros L R. unfold sample_part.
  exact (RR_step false A M RM _ (OArchL lev (Some (NStr nm))) _ _ (push_reached _ b (push_reached z a R)) L eq_refl).
Qed.

Lemma sample_reached (from : N -> A) (t : raz_tree A M) : iraztree_depth_4 from = Ok t -> tree_reached false t.
Proof.
  intros H. refine (TR_unfocus _ _ _ _ _ _ _ H). do 2 apply push_reached.
  repeat (apply part_reached; [discriminate|]). apply RR_new.
Qed.

Theorem sample_layout (from : N -> A) :
  exists t : raz_tree A M, iraztree_depth_4 from = Ok t /\ tree_reached false t /\ canonical t /\
    unlabelled (drawn_tree t) = unlabelled (documented from) /\
    elts (contents t) = map from [1; 2; 3; 4; 5; 6; 7; 8; 9; 10; 11; 12; 13; 14; 15; 16]%N.
Proof.
  destruct (sample_value from) as (t & H & D & El & _ & O). exists t. pose proof (sample_reached from t H) as R.
  split; [exact H|]. split; [exact R|]. split; [split; [exact (tree_reached_good t R)|exact O]|].
  split; [rewrite D; reflexivity|exact El].
Qed.
Theorem sample_names (from : N -> A) :
  exists t : raz_tree A M, iraztree_depth_4 from = Ok t /\
    marks (contents t) = map (fun p => (fst p, Some (NPair (NStr (snd p)) (NStr "tree"))))
      [(1%N, "ll"); (4%N, "l"); (2%N, "lr"); (6%N, "rl"); (3%N, "r"); (5%N, "rr"); (4%N, "g")].
Proof. destruct (sample_value from) as (t & H & _ & _ & Mk & _). eauto. Qed.
Theorem sample_labels (from : N -> A) :
  exists t : raz_tree A M, iraztree_depth_4 from = Ok t /\
    drawn_tree t <> relabel (fun s => Some (NPair (NStr s) (NStr "tree"))) (documented from) /\
    drawn_tree t <> relabel (fun s => Some (NStr s)) (documented from).
Proof.
  destruct (sample_value from) as (t & H & D & _). exists t. split; [exact H|]. rewrite D. split; discriminate.
Qed.
End Sample.
