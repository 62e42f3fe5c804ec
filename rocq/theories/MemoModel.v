(** * The folds and maps of src/level_tree.rs with their memo table.

    The other model files read [memo!(n =>> f, args ;; g)] as the call [f(args, g)].
    Adapton keeps one memo entry per name: the call is answered from the entry of [n]
    when the arguments before the [;;] are the ones recorded there, otherwise the body
    runs and the entry is replaced. The closure after the [;;] is not compared. This
    file makes that table explicit. Simplifications: one namespace; an argument counts
    as unchanged when the whole tree under the handle is unchanged (Adapton can stop
    earlier, when a changed part still gives the same result); the entry of a call is
    recorded when it returns. *)

From Verif Require Import Base LevelTreeModel TreeCursorModel RazMetaModel RazModel.

(** [PartialEq] of [Tree] and [TreeNode] through the cells, src/level_tree.rs:20-31. *)
Section Same.
Context {A : Type} (eqA : forall x y : A, {x = y} + {x <> y}).
Fixpoint tree_same (t u : tree A) : bool :=
  match t, u with
  | Node lv nm d l r, Node lv' nm' d' l' r' =>
      (lv =? lv')%N
      && (if oname_eq_dec nm nm' then true else false)
      && (if eqA d d' then true else false)
      && match l, l' with
         | None, None => true
         | Some x, Some y => tree_same x y
         | _, _ => false
         end
      && match r, r' with
         | None, None => true
         | Some x, Some y => tree_same x y
         | _, _ => false
         end
  end.
End Same.

(** The memo entries: arguments and result of the last run under a name. *)
Definition mtab (K R : Type) : Type := name -> option (K * R).
Definition no_memos {K R} : mtab K R := fun _ => None.
Definition memo_set {K R} (tab : mtab K R) (n : name) (k : K) (r : R) : mtab K R :=
  fun m => if name_eq_dec m n then Some (k, r) else tab m.

(** [memo!(n =>> body, k ;; ..)]. A body returns its result, the table it leaves, and
    the trees whose body has run, in order. *)
Definition memo {K R L} (same : K -> K -> bool) (n : name) (k : K)
    (body : mtab K R -> res (R * mtab K R * list L)) (tab : mtab K R)
    : res (R * mtab K R * list L) :=
  match tab n with
  | Some (k', r) => if same k k' then Ok (r, tab, []) else
      do ' (r, tab', lg) <- body tab; Ok (r, memo_set tab' n k r, lg)
  | None => do ' (r, tab', lg) <- body tab; Ok (r, memo_set tab' n k r, lg)
  end.

(** [memo!] under a name, a plain call without. *)
Definition memo_opt {K R L} (same : K -> K -> bool) (n : option name) (k : K)
    (body : mtab K R -> res (R * mtab K R * list L)) (tab : mtab K R)
    : res (R * mtab K R * list L) :=
  match n with
  | Some n => memo same n k body tab
  | None => body tab
  end.

(** [name_fork], as used at src/level_tree.rs:111, 154 and 190. *)
Definition fork_left (n : option name) : option name := option_map NForkL n.
Definition fork_right (n : option name) : option name := option_map NForkR n.

Section Folds.
Context {A : Type} (eqA : forall x y : A, {x = y} + {x <> y}).

(** [fold_up_meta], src/level_tree.rs:101-120. *)
Fixpoint m_fold_up_meta {R}
    (f : option R -> A -> level -> option name -> option R -> res R)
    (t : tree A) (tab : mtab (tree A) R) : res (R * mtab (tree A) R * list (tree A)) :=
  match t with
  | Node lv nm d l r =>
      do ' (rl, tab1, lg1) <-
        match l with
        | None => Ok (None, tab, [])
        | Some t1 =>
            do ' (x, tab1, lg1) <- memo_opt (tree_same eqA) (fork_left nm) t1 (m_fold_up_meta f t1) tab;
            Ok (Some x, tab1, lg1)
        end;
      do ' (rr, tab2, lg2) <-
        match r with
        | None => Ok (None, tab1, [])
        | Some t2 =>
            do ' (x, tab2, lg2) <- memo_opt (tree_same eqA) (fork_right nm) t2 (m_fold_up_meta f t2) tab1;
            Ok (Some x, tab2, lg2)
        end;
      do x <- f rl d lv nm rr;
      Ok (x, tab2, t :: lg1 ++ lg2)
  end.

(** [map], src/level_tree.rs:178-200: the same two [memo!] calls, then [map_val] and
    [Tree::new]. *)
Definition m_map {B}
    (f : A -> level -> option name -> option (tree B) -> option (tree B) -> res B)
    (t : tree A) (tab : mtab (tree A) (tree B)) : res (tree B * mtab (tree A) (tree B) * list (tree A)) :=
  m_fold_up_meta (fun l d lv nm r =>
    do d' <- f d lv nm l r; unwrap "map: Tree::new" (tree_new lv nm d' l r)) t tab.

(** [fold_lr_meta], src/level_tree.rs:135-173: [start_name] and [accum] are compared
    arguments as well. *)
Section LR.
Context {R : Type} (eqR : forall x y : R, {x = y} + {x <> y}).
Definition lr_same (k k' : tree A * option name * R) : bool :=
  tree_same eqA (fst (fst k)) (fst (fst k'))
  && (if oname_eq_dec (snd (fst k)) (snd (fst k')) then true else false)
  && (if eqR (snd k) (snd k') then true else false).
Fixpoint m_fold_lr_meta (f : R -> A -> level -> option name -> R)
    (t : tree A) (start_name : option name) (accum : R)
    (tab : mtab (tree A * option name * R) R)
    : res (R * mtab (tree A * option name * R) R * list (tree A)) :=
  match t with
  | Node lv nm d l r =>
      match l, r with
      | None, None => Ok (f accum d lv start_name, tab, [t])
      | _, _ =>
          do ' (a1, tab1, lg1) <-
            match l with
            | None => Ok (accum, tab, [])
            | Some t1 => memo_opt lr_same (fork_left nm) (t1, start_name, accum)
                           (m_fold_lr_meta f t1 start_name accum) tab
            end;
          let a2 := f a1 d lv nm in
          do ' (a3, tab2, lg2) <-
            match r with
            | None => Ok (a2, tab1, [])
            | Some t2 => memo_opt lr_same (fork_right nm) (t2, nm, a2)
                           (m_fold_lr_meta f t2 nm a2) tab1
            end;
          Ok (a3, tab2, t :: lg1 ++ lg2)
      end
  end.
End LR.
End Folds.

(** ** The computations of src/raz.rs *)
Section Raz.
Context {E M : Type} {RM : RazMeta E M} (eqD : forall x y : tree_data E M, {x = y} + {x <> y}).
Notation rtree := (tree (tree_data E M)).

(** [self.tree.map(|tree| ..)], e.g. src/raz.rs:153. *)
Definition on_tree {K R L} (run : rtree -> mtab K R -> res (R * mtab K R * list L))
    (t : raz_tree E M) (tab : mtab K R) : res (option R * mtab K R * list L) :=
  match rt_tree t with
  | None => Ok (None, tab, [])
  | Some tr => do ' (x, tab', lg) <- run tr tab; Ok (Some x, tab', lg)
  end.

(** The node function of [fold_up], src/raz.rs:154-170. *)
Definition up_node {R} (init : E -> R) (bin : R -> R -> R)
    (l : option R) (c : tree_data E M) (lv : level) (n : option name) (r : option R) : res R :=
  match c with
  | Leaf v =>
      match map init v with
      | [] => Panic "leaf with empty vec"
      | first :: rest => Ok (fold_left bin rest first)
      end
  | _ =>
      match l, r with
      | None, None => Panic "branch with no data"
      | Some x, None => Ok x
      | None, Some x => Ok x
      | Some x1, Some x2 => Ok (bin x1 x2)
      end
  end.
(** ... of [fold_up_nl], src/raz.rs:186-202. *)
Definition up_nl_node {R} (init : E -> R) (bin : R -> R -> R) (binnl : R -> level -> option name -> R -> R)
    (l : option R) (c : tree_data E M) (lv : level) (n : option name) (r : option R) : res R :=
  match c with
  | Leaf v =>
      match map init v with
      | [] => Panic "leaf with empty vec"
      | first :: rest => Ok (fold_left bin rest first)
      end
  | _ =>
      match l, r with
      | None, None => Panic "branch with no data"
      | Some x, None => Ok x
      | None, Some x => Ok x
      | Some x1, Some x2 => Ok (binnl x1 lv n x2)
      end
  end.
(** ... of [fold_up_gauged], src/raz.rs:216-228. *)
Definition up_gauged_node {R} (init : list E -> res R) (bin : R -> level -> option name -> R -> res R)
    (l : option R) (c : tree_data E M) (lv : level) (n : option name) (r : option R) : res R :=
  match c with
  | Leaf v => init v
  | _ =>
      match l, r with
      | None, None => Panic "branch with no data"
      | Some x, None => Ok x
      | None, Some x => Ok x
      | Some x1, Some x2 => bin x1 lv n x2
      end
  end.
(** ... of [fold_lr_meta], src/raz.rs:246-258, and [fold_lr_archive], 271-283. *)
Definition lr_node {R} (bin : R -> E -> R) (meta : R -> level * option name -> R)
    (a : R) (e : tree_data E M) (l : level) (n : option name) : R :=
  match e with
  | Leaf v => fold_left bin v a
  | _ => meta a (l, n)
  end.
Definition lr_archive_node {R} (bin : R -> E -> R) (finbin : R -> option name -> R) (meta : R -> level -> R)
    (a : R) (e : tree_data E M) (l : level) (n : option name) : R :=
  match e with
  | Leaf v => finbin (fold_left bin v a) n
  | _ => meta a l
  end.

(** [fold_up], [fold_up_nl], [fold_up_gauged], src/raz.rs:148-230. *)
Definition m_rt_fold_up {R} (init : E -> R) (bin : R -> R -> R) :=
  on_tree (m_fold_up_meta eqD (up_node init bin)).
Definition m_rt_fold_up_nl {R} (init : E -> R) (bin : R -> R -> R) (binnl : R -> level -> option name -> R -> R) :=
  on_tree (m_fold_up_meta eqD (up_nl_node init bin binnl)).
Definition m_rt_fold_up_gauged {R} (init : list E -> res R) (bin : R -> level -> option name -> R -> res R) :=
  on_tree (m_fold_up_meta eqD (up_gauged_node init bin)).

(** [fold_lr_meta], [fold_lr], [fold_lr_archive], src/raz.rs:233-285: [init] for no tree. *)
Definition m_rt_lr {R} (eqR : forall x y : R, {x = y} + {x <> y})
    (f : R -> tree_data E M -> level -> option name -> R) (init : R) (t : raz_tree E M)
    (tab : mtab (rtree * option name * R) R) : res (R * mtab (rtree * option name * R) R * list rtree) :=
  match rt_tree t with
  | None => Ok (init, tab, [])
  | Some tr => m_fold_lr_meta eqD eqR f tr (Some (NStr "start")) init tab
  end.
Definition m_rt_fold_lr_meta {R} eqR (bin : R -> E -> R) (meta : R -> level * option name -> R) (init : R) :=
  m_rt_lr eqR (lr_node bin meta) init.
Definition m_rt_fold_lr {R} eqR (bin : R -> E -> R) (init : R) :=
  m_rt_fold_lr_meta eqR bin (fun a _ => a) init.
Definition m_rt_fold_lr_archive {R} eqR (bin : R -> E -> R) (finbin : R -> option name -> R)
    (meta : R -> level -> R) (init : R) :=
  m_rt_lr eqR (lr_archive_node bin finbin meta) init.

(** [map], src/raz.rs:288-317. *)
Definition m_rt_map {R N} {RN : RazMeta R N} (f : E -> R) (t : raz_tree E M)
    (tab : mtab rtree (tree (tree_data R N)))
    : res (raz_tree R N * mtab rtree (tree (tree_data R N)) * list rtree) :=
  do ' (tr, tab', lg) <- on_tree (m_map eqD
    (fun d lev n l r =>
       match d with
       | Leaf v => Ok (Leaf (map f v))
       | _ => td_rebuild (peek_op l) Dummy lev n (peek_op r)
       end)) t tab;
  do t' <- mk_raz_tree tr;
  Ok (t', tab', lg).
End Raz.
