(** * Vocabulary for statements about level trees. *)

From Verif Require Import Base LevelTreeModel.

Section Inorder.
Context {A : Type}.

(** The nodes of a tree from left to right: level, name, data. *)
Fixpoint inorder (t : tree A) : list (level * option name * A) :=
  match t with
  | Node lv nm d l r =>
      match l with None => [] | Some t1 => inorder t1 end
      ++ (lv, nm, d) ::
      match r with None => [] | Some t2 => inorder t2 end
  end.
Definition oinorder (o : option (tree A)) : list (level * option name * A) :=
  match o with None => [] | Some t => inorder t end.

(** The same, with the information whether the node is a leaf (no children). *)
Fixpoint inorder_leaf (t : tree A) : list (bool * (level * option name * A)) :=
  match t with
  | Node lv nm d l r =>
      match l with None => [] | Some t1 => inorder_leaf t1 end
      ++ (match l, r with None, None => true | _, _ => false end, (lv, nm, d)) ::
      match r with None => [] | Some t2 => inorder_leaf t2 end
  end.

(** The level convention: left child strictly lower, right child not higher. *)
Definition lev_lt (o : option (tree A)) (lv : level) : Prop :=
  match o with None => True | Some t => (t_level t < lv)%N end.
Definition lev_le (o : option (tree A)) (lv : level) : Prop :=
  match o with None => True | Some t => (t_level t <= lv)%N end.
Fixpoint conventional (t : tree A) : Prop :=
  match t with
  | Node lv nm d l r =>
      lev_lt l lv /\ lev_le r lv /\
      match l with None => True | Some t1 => conventional t1 end /\
      match r with None => True | Some t2 => conventional t2 end
  end.
Definition oconventional (o : option (tree A)) : Prop :=
  match o with None => True | Some t => conventional t end.

End Inorder.

(** A tree without its data. *)
Fixpoint skeleton {A} (t : tree A) : tree unit :=
  match t with
  | Node lv nm _ l r => Node lv nm tt (option_map skeleton l) (option_map skeleton r)
  end.

(** Left fold over the nodes in order; an inner node is shown with its own name, a
    leaf with the name of the node before it ([start] for the first node). *)
Fixpoint lr_spec {A R} (f : R -> A -> level -> option name -> R) (prev : option name) (acc : R)
    (ns : list (bool * (level * option name * A))) : R :=
  match ns with
  | [] => acc
  | (true, (lv, nm, d)) :: r => lr_spec f nm (f acc d lv prev) r
  | (false, (lv, nm, d)) :: r => lr_spec f nm (f acc d lv nm) r
  end.
