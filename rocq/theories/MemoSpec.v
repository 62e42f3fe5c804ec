(** * Vocabulary for statements about memoised folds. *)

From Verif Require Import Base Spec LevelTreeModel TreeSpec MemoModel.

Section Trees.
Context {A : Type}.

(** All subtrees, the tree itself included. *)
Fixpoint subtrees (t : tree A) : list (tree A) :=
  match t with
  | Node _ _ _ l r =>
      t :: match l with None => [] | Some t1 => subtrees t1 end
        ++ match r with None => [] | Some t2 => subtrees t2 end
  end.

(** The names in a tree. *)
Fixpoint names (t : tree A) : list name :=
  match t with
  | Node _ nm _ l r =>
      match nm with None => [] | Some n => [n] end
      ++ match l with None => [] | Some t1 => names t1 end
      ++ match r with None => [] | Some t2 => names t2 end
  end.

(** Exactly the inner nodes are named, and they have two branches. *)
Definition inner_named (t : tree A) : Prop :=
  forall lv nm d l r, In (Node lv nm d l r) (subtrees t) ->
  match nm with
  | Some _ => l <> None /\ r <> None
  | None => l = None /\ r = None
  end.

(** Trees computed on so far, the latest first. A name is in use in the tree before
    or has never been used: names of deleted nodes are not used again. *)
Fixpoint orderly (hist : list (tree A)) : Prop :=
  match hist with
  | [] => True
  | t :: older =>
      orderly older /\ inner_named t /\ NoDup (names t) /\
      forall n, In n (names t) ->
        match older with
        | [] => True
        | p :: _ => In n (names p) \/ forall u, In u older -> ~ In n (names u)
        end
  end.

(** The number of inner nodes of [t'] that do not occur, with everything below
    them, in [t]. *)
Definition has_children (t : tree A) : bool :=
  match t with Node _ _ _ None None => false | _ => true end.
Definition changed (eqA : forall x y : A, {x = y} + {x <> y}) (t t' : tree A) : nat :=
  length (filter (fun s => has_children s && negb (existsb (tree_same eqA s) (subtrees t))) (subtrees t')).

End Trees.

(** What a memoised call answers. *)
Definition answer {X Y Z} (m : res (X * Y * Z)) : res X :=
  match m with Ok (x, _, _) => Ok x | Panic s => Panic s | Fuel => Fuel end.
(** The answers up to the first panic. *)
Fixpoint all_ok {X} (l : list (res X)) : res (list X) :=
  match l with
  | [] => Ok []
  | x :: r => do y <- x; do ys <- all_ok r; Ok (y :: ys)
  end.

(** Run the same computation on one tree after the other, keeping the table. *)
Fixpoint runs {X K R Y L} (run : X -> mtab K R -> res (Y * mtab K R * list L)) (xs : list X) (tab : mtab K R)
    : res (list Y * mtab K R * list (list L)) :=
  match xs with
  | [] => Ok ([], tab, [])
  | x :: r =>
      do ' (y, tab1, lg) <- run x tab;
      do ' (ys, tab2, lgs) <- runs run r tab1;
      Ok (y :: ys, tab2, lg :: lgs)
  end.

(** Archive points that no later one is above, counted from the end; and ones above
    all earlier ones. *)
Fixpoint seen_from_right {E} (l : list (atom E level)) : nat :=
  match l with
  | [] => 0
  | Elt _ :: r => seen_from_right r
  | Mark m _ :: r =>
      (if forallb (fun p => (fst p <=? m)%N) (marks r) then 1 else 0) + seen_from_right r
  end.
Fixpoint seen_from_left {E} (top : level) (l : list (atom E level)) : nat :=
  match l with
  | [] => 0
  | Elt _ :: r => seen_from_left top r
  | Mark m _ :: r => if (top <? m)%N then S (seen_from_left m r) else seen_from_left top r
  end.

(** The same discipline for the sequences of Raz trees: every archive point is named,
    no name twice, names of removed archive points are not used again. *)
Definition has_point {E} (n : name) (l : list (atom E level)) : Prop := In (Some n) (map snd (marks l)).
Fixpoint orderly_points {E} (hist : list (list (atom E level))) : Prop :=
  match hist with
  | [] => True
  | l :: older =>
      orderly_points older /\ (forall p, In p (marks l) -> snd p <> None) /\ NoDup (map snd (marks l)) /\
      forall n, has_point n l ->
        match older with
        | [] => True
        | p :: _ => has_point n p \/ forall u, In u older -> ~ has_point n u
        end
  end.
