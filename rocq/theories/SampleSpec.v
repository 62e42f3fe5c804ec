(** * Specification of the example tree: the diagram of its documentation. *)

From Verif Require Import Base LevelTreeModel RazModel.

(** A drawing: arrays and labelled points. *)
Inductive drawing (A L : Type) : Type :=
| Array (v : list A)
| Point (label : L) (lev : level) (l r : drawing A L).
Arguments Array {A L} v.
Arguments Point {A L} label lev l r.

(** The diagram, eval/src/examples.rs:14-22. *)
Definition documented {A} (from : N -> A) : drawing A string :=
  (let arr a b := Array [from a; from b] in
   Point "t" 6
    (Point "l" 4 (Point "ll" 1 (arr 1 2) (arr 3 4)) (Point "lr" 2 (arr 5 6) (arr 7 8)))
    (Point "r" 5 (Point "rl" 3 (arr 9 10) (arr 11 12)) (Point "rr" 4 (arr 13 14) (arr 15 16))))%N.

(** The drawing of a tree: the names of its nodes as labels. *)
Fixpoint drawn {A M} (t : tree (tree_data A M)) : drawing A (option name) :=
  match t with
  | Node lv nm d l r =>
      match d with
      | Leaf v => Array v
      | _ =>
        match l, r with
        | Some l, Some r => Point nm lv (drawn l) (drawn r)
        | _, _ => Array []
        end
      end
  end.
Definition drawn_tree {A M} (t : raz_tree A M) : drawing A (option name) :=
  match rt_tree t with None => Array [] | Some t => drawn t end.

(** Other labels. *)
Fixpoint relabel {A L L'} (f : L -> L') (d : drawing A L) : drawing A L' :=
  match d with
  | Array v => Array v
  | Point x lv l r => Point (f x) lv (relabel f l) (relabel f r)
  end.
Definition unlabelled {A L} (d : drawing A L) : drawing A unit := relabel (fun _ => tt) d.
