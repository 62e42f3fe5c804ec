(** * Model of eval/src/examples.rs: the example tree for tests. *)

From Verif Require Import Base AStackModel LevelTreeModel RazMetaModel RazModel.

Section Sample.
Context {A M : Type} {RM : RazMeta A M}.

(** Two pushes and an archive, the repeated pattern of eval/src/examples.rs:26-45. *)
Definition sample_part (z : raz A M) (a b : A) (lev : level) (nm : string) : raz A M :=
  archive_left (snd (push_left (snd (push_left z a)) b)) lev (Some (NStr nm)).

(** [iraztree_depth_4], eval/src/examples.rs:24-48. [from] is [A::from]. *)
Definition iraztree_depth_4 (from : N -> A) : res (raz_tree A M) :=
  let r := raz_new in
  let r := sample_part r (from 1%N) (from 2%N) 1%N "ll" in
  let r := sample_part r (from 3%N) (from 4%N) 4%N "l" in
  let r := sample_part r (from 5%N) (from 6%N) 2%N "lr" in
  let r := sample_part r (from 7%N) (from 8%N) 6%N "rl" in
  let r := sample_part r (from 9%N) (from 10%N) 3%N "r" in
  let r := sample_part r (from 11%N) (from 12%N) 5%N "rr" in
  let r := sample_part r (from 13%N) (from 14%N) 4%N "g" in
  let r := snd (push_left r (from 15%N)) in
  let r := snd (push_left r (from 16%N)) in
  unfocus r.
End Sample.
