(** * Model of src/level_tree.rs. *)

From Verif Require Import Base.

(** [Tree] and [TreeNode], src/level_tree.rs:19-31; the [link: Art<TreeNode>] is
    modelled by the node itself. *)
Inductive tree (A : Type) : Type :=
| Node (lev : level) (nm : option name) (data : A) (l r : option (tree A)).
Arguments Node {A} lev nm data l r.

Section Tree.
Context {A : Type}.

(** [Tree::new], src/level_tree.rs:36-73: always [Some]. *)
Definition tree_new (lev : level) (nm : option name) (data : A)
    (l r : option (tree A)) : option (tree A) :=
  match nm with
  | Some n => Some (Node lev (Some n) data l r)
  | None => Some (Node lev None data l r)
  end.

(** [level], [name], [l_tree], [r_tree], [peek], src/level_tree.rs:76-88. *)
Definition t_level (t : tree A) : level := match t with Node lv _ _ _ _ => lv end.
Definition t_name (t : tree A) : option name := match t with Node _ n _ _ _ => n end.
Definition t_left (t : tree A) : option (tree A) := match t with Node _ _ _ l _ => l end.
Definition t_right (t : tree A) : option (tree A) := match t with Node _ _ _ _ r => r end.
Definition t_peek (t : tree A) : A := match t with Node _ _ d _ _ => d end.

(** [fold_up_meta], src/level_tree.rs:101-120; the [memo!] calls are calls. The
    node function may panic (the closures of raz.rs do), hence [res]. *)
Fixpoint t_fold_up_meta {R}
    (f : option R -> A -> level -> option name -> option R -> res R)
    (t : tree A) : res R :=
  match t with
  | Node lv nm d l r =>
      do rl <- match l with
               | None => Ok None
               | Some t1 => do x <- t_fold_up_meta f t1; Ok (Some x)
               end;
      do rr <- match r with
               | None => Ok None
               | Some t2 => do x <- t_fold_up_meta f t2; Ok (Some x)
               end;
      f rl d lv nm rr
  end.

(** [fold_up], src/level_tree.rs:91-95. *)
Definition t_fold_up {R} (f : option R -> A -> option R -> res R) (t : tree A) : res R :=
  t_fold_up_meta (fun l d _lv _n r => f l d r) t.

(** [fold_lr_meta], src/level_tree.rs:135-170. [fold_memo] (139-150) with and
    without a memo name makes the same recursive call. *)
Fixpoint t_fold_lr_meta {R} (f : R -> A -> level -> option name -> R)
    (t : tree A) (start_name : option name) (accum : R) : R :=
  match t with
  | Node lv nm d l r =>
      match l, r with
      | None, None => f accum d lv start_name
      | _, _ =>
          let a1 := match l with
                    | None => accum
                    | Some t1 => t_fold_lr_meta f t1 start_name accum
                    end in
          let a2 := f a1 d lv nm in
          match r with
          | None => a2
          | Some t2 => t_fold_lr_meta f t2 nm a2
          end
      end
  end.

(** [fold_lr], src/level_tree.rs:123-129. *)
Definition t_fold_lr {R} (f : R -> A -> R) (t : tree A) (accum : R) : R :=
  t_fold_lr_meta (fun a e _l _n => f a e) t (Some (NStr "start")) accum.

End Tree.

(** [map], src/level_tree.rs:178-200. The mapping function may panic
    ([TreeData::rebuild] has an [unreachable!]); the final [unwrap] cannot fail. *)
Fixpoint t_map {A B}
    (f : A -> level -> option name -> option (tree B) -> option (tree B) -> res B)
    (t : tree A) : res (tree B) :=
  match t with
  | Node lv nm d l r =>
      do l' <- match l with
               | None => Ok None
               | Some t1 => do x <- t_map f t1; Ok (Some x)
               end;
      do r' <- match r with
               | None => Ok None
               | Some t2 => do x <- t_map f t2; Ok (Some x)
               end;
      do d' <- f d lv nm l' r';
      unwrap "map: Tree::new" (tree_new lv nm d' l' r')
  end.

(** [good_levels], src/level_tree.rs:219-236 (without the printing). *)
Fixpoint good_levels {A} (t : tree A) : bool :=
  match t with
  | Node lv _ _ l r =>
      match l with
      | None => true
      | Some t1 => negb (lv <? t_level t1)%N && good_levels t1
      end
      &&
      match r with
      | None => true
      | Some t2 => negb (lv <=? t_level t2)%N && good_levels t2
      end
  end.
