(** * [map] of src/level_tree.rs and src/raz.rs over the store, with memo entries that
      know what was read and what was written.

    As IncModel, for a computation that makes cells. An entry of the memo table holds the
    handle given, the cells read and the cells written (each with its content) and the
    handle returned. A call is answered from its entry when the handle is the recorded one
    and every cell read or written then has the recorded content now (an overwritten result
    must be made again); otherwise the body runs and the entry is replaced. The closure
    after the [;;] of [memo!] is not compared. Simplifications: those of IncModel; as in
    StoreMapModel, [map] is from a type to itself. *)

From Verif Require Import Base LevelTreeModel TreeCursorModel RazMetaModel RazModel MemoModel StoreModel IncModel.

(** Computations over the store that use the table: the result, the store left, the
    cells read and written, the table left, and the handles whose body has run. *)
Definition um (T A K R X : Type) : Type :=
  store T A -> itab A K R -> res (X * store T A * list (@seen A) * itab A K R * list (stree A)).
Definition u_ret {T A K R X} (x : X) : um T A K R X := fun st tab => Ok (x, st, [], tab, []).
Definition u_bind {T A K R X Y} (m : um T A K R X) (f : X -> um T A K R Y) : um T A K R Y :=
  fun st tab =>
    do ' (x, st1, s1, tab1, lg1) <- m st tab;
    do ' (y, st2, s2, tab2, lg2) <- f x st1 tab1;
    Ok (y, st2, s1 ++ s2, tab2, lg1 ++ lg2).
Definition u_lift {T A K R X} (m : res X) : um T A K R X := fun st tab => do x <- m; Ok (x, st, [], tab, []).
Notation "'upd' x <- m ; k" := (u_bind m (fun x => k))
  (at level 200, x name, m at level 100, k at level 200).
Notation "'upd' ' p <- m ; k" := (u_bind m (fun p => k))
  (at level 200, p pattern, m at level 100, k at level 200).

Section Tree.
Context {T A : Type} (eqA : forall x y : A, {x = y} + {x <> y}) {Nsp : here}.

(** The body of the call with this handle runs: nothing in the code, it is counted. *)
Definition u_enter {K R} (t : stree A) : um T A K R unit := fun st tab => Ok (tt, st, [], tab, [t]).

(** [force(&self.link)], src/level_tree.rs:82, 85, 88, 184. *)
Definition u_force {K R} (t : stree A) : um T A K R (A * option (stree A) * option (stree A)) :=
  fun st tab =>
    do x <- unwrap "force: no such node" (tree_look st t);
    Ok (x, st, match t with TPut _ _ _ _ => [] | TCell _ a => [(a, x)] end, tab, []).

(** [Tree::new], src/level_tree.rs:36-73. *)
Definition u_tree_new {K R} (lev : level) (nm : option name) (data : A) (l r : option (stree A))
    : um T A K R (option (stree A)) :=
  fun st tab =>
    match nm with
    | Some n => Ok (Some (TCell lev (path, n)), write st (path, n) (CNode data l r), [((path, n), (data, l, r))], tab, [])
    | None => Ok (Some (TPut lev data l r), st, [], tab, [])
    end.

(** [memo!(n =>> body, t ;; ..)]; a plain call without a name. *)
Definition u_memo {R} (n : name) (t : stree A) (body : um T A (stree A) R R) : um T A (stree A) R R :=
  fun st tab =>
    let rerun :=
      do ' (r, st', s, tab', lg) <- body st tab;
      Ok (r, st', s, i_set tab' (path, n) (Entry t s r), lg) in
    match tab (path, n) with
    | Some e =>
        if stree_same eqA t (e_arg e) && forallb (holds eqA st) (e_seen e) then Ok (e_res e, st, e_seen e, tab, [])
        else rerun
    | None => rerun
    end.
Definition u_memo_opt {R} (n : option name) (t : stree A) (body : um T A (stree A) R R) : um T A (stree A) R R :=
  match n with
  | Some n => u_memo n t body
  | None => body
  end.

(** [map], src/level_tree.rs:178-200; [k] bounds the depth. *)
Fixpoint u_map (f : A -> level -> option name -> option (stree A) -> option (stree A) -> um T A (stree A) (stree A) A)
    (k : nat) (t : stree A) : um T A (stree A) (stree A) (stree A) :=
  match k with
  | O => u_lift Fuel
  | S k =>
      upd _ <- u_enter t;
      upd ' (d, l, r) <- u_force t;
      upd l' <- match l with
                | None => u_ret None
                | Some t1 => upd x <- u_memo_opt (fork_left (st_name t)) t1 (u_map f k t1); u_ret (Some x)
                end;
      upd r' <- match r with
                | None => u_ret None
                | Some t2 => upd x <- u_memo_opt (fork_right (st_name t)) t2 (u_map f k t2); u_ret (Some x)
                end;
      upd d' <- f d (st_level t) (st_name t) l' r';
      upd o <- u_tree_new (st_level t) (st_name t) d' l' r';
      u_lift (unwrap "map: Tree::new" o)
  end.

(** [peek], src/level_tree.rs:88, as used at src/raz.rs:307, 310. *)
Definition u_peek_op {K R} (o : option (stree A)) : um T A K R (option A) :=
  match o with
  | None => u_ret None
  | Some t => upd ' (d, _, _) <- u_force t; u_ret (Some d)
  end.
End Tree.

Section Raz.
Context {E M : Type} {RM : RazMeta E M} (eqD : forall x y : tree_data E M, {x = y} + {x <> y}) {Nsp : here}.
Notation rdata := (tree_data E M).
Notation um := (um (level * list E) rdata (stree rdata) (stree rdata)).

(** [map], src/raz.rs:288-317, and [treetop_meta], src/raz.rs:93-106. *)
Definition u_map_node (f : E -> E) (d : rdata) (lev : level) (n : option name)
    (l r : option (stree rdata)) : um rdata :=
  match d with
  | Leaf v => u_ret (Leaf (map f v))
  | _ =>
      upd dl <- u_peek_op l;
      upd dr <- u_peek_op r;
      u_lift (td_rebuild dl Dummy lev n dr)
  end.
Definition u_treetop_meta {K R} (t : option (stree rdata)) : IncMapModel.um (level * list E) rdata K R M :=
  upd d <- u_peek_op t;
  match d with
  | None => u_ret (from_none 0%N None)
  | Some Dummy => u_lift (Panic "treetop_meta: unreachable")
  | Some (Leaf v) => u_ret (from_vec v 0%N None)
  | Some (Branch l r) => u_ret (from_meta l r 0%N None)
  end.
Definition u_rt_map (k : nat) (f : E -> E) (t : sraz_tree E M) : um (sraz_tree E M) :=
  upd tr <-
    match srt_tree t with
    | None => u_ret None
    | Some tr => upd x <- u_map eqD (u_map_node f) k tr; u_ret (Some x)
    end;
  upd m <- u_treetop_meta tr;
  u_ret (SRazTree m tr).
End Raz.
