(** * The computations of eval/examples/reverse.rs and filter.rs over the store, memoised.

    Both fold the tree with [fold_up_gauged] and build a new one: the results of the calls
    that are memoised are trees, made in a namespace of their own. Entries of the memo table
    record the cells read and written, as in IncMapModel, with the same simplifications. *)

From Verif Require Import Base LevelTreeModel TreeCursorModel RazMetaModel RazModel MemoModel StoreModel IncModel IncMapModel.

Section Fold.
Context {T A R : Type} (eqA : forall x y : A, {x = y} + {x <> y}) {Nsp : here}.

(** [fold_up_meta], src/level_tree.rs:101-120; [k] bounds the depth. *)
Fixpoint u_fold_up_meta (f : option R -> A -> level -> option name -> option R -> um T A (stree A) R R)
    (k : nat) (t : stree A) : um T A (stree A) R R :=
  match k with
  | O => u_lift Fuel
  | S k =>
      upd _ <- u_enter t;
      upd ' (d, l, r) <- u_force t;
      upd l' <- match l with
                | None => u_ret None
                | Some t1 => upd x <- u_memo_opt eqA (fork_left (st_name t)) t1 (u_fold_up_meta f k t1); u_ret (Some x)
                end;
      upd r' <- match r with
                | None => u_ret None
                | Some t2 => upd x <- u_memo_opt eqA (fork_right (st_name t)) t2 (u_fold_up_meta f k t2); u_ret (Some x)
                end;
      f l' d (st_level t) (st_name t) r'
  end.
End Fold.

Section Raz.
Context {E M : Type} {RM : RazMeta E M} (eqD : forall x y : tree_data E M, {x = y} + {x <> y}) {Nsp : here}.
Notation rdata := (tree_data E M).
Notation um X := (um (level * list E) rdata (stree rdata) (sraz_tree E M) X).

(** [RazTree{meta: treetop_meta(t), tree: t}]. *)
Definition u_mk_raz_tree (t : option (stree rdata)) : um (sraz_tree E M) :=
  upd m <- u_treetop_meta t; u_ret (SRazTree m t).
(** [leaf] and [bin], src/raz.rs:687-708; [join], src/raz.rs:121-131; [from_vec],
    src/raz.rs:137-141; [is_empty], src/raz.rs:110. *)
Definition u_leaf (v : list E) (n : option name) : um (stree rdata) :=
  upd o <- u_tree_new 0%N n (Leaf v) None None;
  u_lift (unwrap "leaf: unwrap" o).
Definition u_bin (t1 : stree rdata) (l : level) (n : option name) (t2 : stree rdata) : um (stree rdata) :=
  upd d1 <- u_peek_op (Some t1);
  upd d2 <- u_peek_op (Some t2);
  upd td <- u_lift (td_rebuild d1 Dummy l n d2);
  upd o <- u_tree_new l n td (Some t1) (Some t2);
  u_lift (unwrap "bin: unwrap" o).
Definition u_rt_join (lt : sraz_tree E M) (lev : level) (nm : option name) (rt : sraz_tree E M)
    : um (option (sraz_tree E M)) :=
  match srt_tree lt, srt_tree rt with
  | Some l, Some r =>
      upd t <- u_bin l lev nm r;
      upd rt <- u_mk_raz_tree (Some t);
      u_ret (Some rt)
  | _, _ => u_ret None
  end.
Definition u_rt_from_vec (v : list E) : um (option (sraz_tree E M)) :=
  match v with
  | [] => u_ret None
  | _ =>
      upd t <- u_leaf v None;
      upd rt <- u_mk_raz_tree (Some t);
      u_ret (Some rt)
  end.
Definition u_is_empty (t : sraz_tree E M) : bool :=
  match srt_tree t with None => true | Some _ => false end.

(** [fold_up_gauged], src/raz.rs:210-230. *)
Definition u_gauged (init : list E -> um (sraz_tree E M))
    (bin : sraz_tree E M -> level -> option name -> sraz_tree E M -> um (sraz_tree E M))
    (l : option (sraz_tree E M)) (c : rdata) (lv : level) (n : option name) (r : option (sraz_tree E M)) : um (sraz_tree E M) :=
  match c with
  | Leaf v => init v
  | _ =>
      match l, r with
      | None, None => u_lift (Panic "branch with no data")
      | Some x, None => u_ret x
      | None, Some x => u_ret x
      | Some x1, Some x2 => bin x1 lv n x2
      end
  end.
Definition u_rt_fold_up_gauged (k : nat) (init : list E -> um (sraz_tree E M))
    (bin : sraz_tree E M -> level -> option name -> sraz_tree E M -> um (sraz_tree E M)) (t : sraz_tree E M)
    : um (option (sraz_tree E M)) :=
  match srt_tree t with
  | None => u_ret None
  | Some tr => upd x <- u_fold_up_meta eqD (u_gauged init bin) k tr; u_ret (Some x)
  end.

(** [match IRazTree::from_vec(c) {None => IRazTree::empty(), Some(t) => t}],
    eval/examples/reverse.rs:78-81, eval/examples/filter.rs:78-81. *)
Definition u_vec_tree (c : list E) : um (sraz_tree E M) :=
  upd o <- u_rt_from_vec c;
  match o with
  | None => u_mk_raz_tree None
  | Some t => u_ret t
  end.
End Raz.

Section Build.
Context {E M : Type} {RM : RazMeta E M} (eqD : forall x y : tree_data E M, {x = y} + {x <> y}) {Nsp : here}.
Notation rdata := (tree_data E M).
Notation um X := (um (level * list E) rdata (stree rdata) (sraz_tree E M) X).

(** The combining closures, eval/examples/reverse.rs:83-94, filter.rs:83-94; the join is in
    the namespace [inner], by [ns]. *)
Definition u_reverse_bin (inner : name) (t1 : sraz_tree E M) (lev : level) (nm : option name) (t2 : sraz_tree E M)
    : um (sraz_tree E M) :=
  match u_is_empty t1, u_is_empty t2 with
  | true, true => u_mk_raz_tree None
  | false, true => u_ret t1
  | true, false => u_ret t2
  | false, false => upd o <- u_rt_join (Nsp := inner :: path) t2 lev nm t1; u_lift (unwrap "unwrap on None" o)
  end.
Definition u_filter_bin (inner : name) (t1 : sraz_tree E M) (lev : level) (nm : option name) (t2 : sraz_tree E M)
    : um (sraz_tree E M) :=
  match u_is_empty t1, u_is_empty t2 with
  | true, true => u_mk_raz_tree None
  | false, true => u_ret t1
  | true, false => u_ret t2
  | false, false => upd o <- u_rt_join (Nsp := inner :: path) t1 lev nm t2; u_lift (unwrap "unwrap on None" o)
  end.
(** The computations, eval/examples/reverse.rs:64 and 74-95, filter.rs:64 and 74-95. *)
Definition u_reverse (k : nat) (t : sraz_tree E M) : um (option (sraz_tree E M)) :=
  u_rt_fold_up_gauged eqD k (fun v => u_vec_tree (rev v)) (u_reverse_bin (NStr "reverse")) t.
Definition u_filter (p : E -> bool) (k : nat) (t : sraz_tree E M) : um (option (sraz_tree E M)) :=
  u_rt_fold_up_gauged eqD k (fun v => u_vec_tree (filter p v)) (u_filter_bin (NStr "filter")) t.
End Build.
