(** * How statements look at Raz trees: their atoms and their well-formedness. *)

From Verif Require Import Base Spec SpecRaz LevelTreeModel TreeCursorModel RazMetaModel RazModel
  TreeSpec CursorProofs.

Section View.
Context {E M : Type} {RM : RazMeta E M}.
Notation rtree := (tree (tree_data E M)).

(** A leaf node stands for its elements, any other node for an archive point. *)
Definition item_atoms (lv : level) (nm : option name) (d : tree_data E M) : list (atom E level) :=
  match d with
  | Leaf v => map Elt v
  | _ => [Mark lv nm]
  end.

(** The sequence of a tree: its nodes from left to right. *)
Definition tree_atoms (o : option rtree) : list (atom E level) := tobs item_atoms o.
Definition contents (t : raz_tree E M) : list (atom E level) := tree_atoms (rt_tree t).

(** Node-local well-formedness: leaves are at level 0, unnamed, childless and not
    empty; other nodes have level >= 1, two children, and the metadata computed
    from them. *)
Definition node_ok (lv : level) (nm : option name) (d : tree_data E M) (l r : option rtree) : Prop :=
  match d with
  | Dummy => False
  | Leaf v => lv = 0%N /\ nm = None /\ l = None /\ r = None /\ v <> []
  | Branch ml mr =>
      (1 <= lv)%N /\
      (exists t, l = Some t /\ branch_meta lv nm (Some (t_peek t)) = Ok ml) /\
      (exists t, r = Some t /\ branch_meta lv nm (Some (t_peek t)) = Ok mr)
  end.

Definition tree_ok (t : rtree) : Prop := twf node_ok t.
Definition otree_ok (o : option rtree) : Prop := otwf node_ok o.

(** A RazTree whose tree is well formed and whose metadata is that of its top. *)
Definition good (t : raz_tree E M) : Prop :=
  otree_ok (rt_tree t) /\ treetop_meta (rt_tree t) = Ok (rt_meta t).
Definition canonical (t : raz_tree E M) : Prop :=
  good t /\ oconventional (rt_tree t).

End View.
