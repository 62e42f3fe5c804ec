(** * [map] and [memo_from] over the mutable store.

    [map] of src/level_tree.rs and src/raz.rs, and the two [memo_from] of src/raz.rs, as
    they allocate: a named node of the result is a cell, so it replaces what the
    namespace held under that name. Simplifications: [memo!] is a call, as in
    StoreModel; a store holds data of one type, so [map] is modelled from a type to
    itself (the code allows another element and metadata type). *)

From Verif Require Import Base StackModel AStackModel LevelTreeModel TreeCursorModel RazMetaModel RazModel StoreModel.

Section Tree.
Context {T A : Type} {Nsp : here}.

(** [map], src/level_tree.rs:178-200; [k] bounds the depth. The mapping function may
    look at the new branches ([peek]), so it is a computation over the store. *)
Fixpoint s_map (f : A -> level -> option name -> option (stree A) -> option (stree A) -> sm T A A)
    (k : nat) (t : stree A) : sm T A (stree A) :=
  match k with
  | O => fun _ => Fuel
  | S k =>
      act ' (d, l, r) <- s_force_tree t;
      act l' <- match l with
                | None => s_ret None
                | Some t1 => act x <- s_map f k t1; s_ret (Some x)
                end;
      act r' <- match r with
                | None => s_ret None
                | Some t2 => act x <- s_map f k t2; s_ret (Some x)
                end;
      act d' <- f d (st_level t) (st_name t) l' r';
      act o <- s_tree_new (st_level t) (st_name t) d' l' r';
      s_lift (unwrap "map: Tree::new" o)
  end.
End Tree.

Section Raz.
Context {E M : Type} {RM : RazMeta E M} {Nsp : here}.
Notation rdata := (tree_data E M).
Notation rm := (sm (level * list E) rdata).

(** [map], src/raz.rs:288-317. *)
Definition s_map_node (f : E -> E) (d : rdata) (lev : level) (n : option name)
    (l r : option (stree rdata)) : rm rdata :=
  match d with
  | Leaf v => s_ret (Leaf (map f v))
  | _ =>
      act dl <- s_peek_op l;
      act dr <- s_peek_op r;
      s_lift (td_rebuild dl Dummy lev n dr)
  end.
Definition s_rt_map (k : nat) (f : E -> E) (t : sraz_tree E M) : rm (sraz_tree E M) :=
  act tr <-
    match srt_tree t with
    | None => s_ret None
    | Some tr => act x <- s_map (s_map_node f) k tr; s_ret (Some x)
    end;
  s_mk_raz_tree tr.

(** [from_stack] for [AtTail], src/raz.rs:731-762; [from_stack_memo] (719-729) only adds
    memoization. *)
Definition s_from_result : Type := sastack E level * option level * option name * stree rdata.
Fixpoint s_tail_from_stack (fuel : nat) (s : sastack E level) (first_level : level)
    (first_name : option name) (accum : stree rdata) (max_level : level) : rm s_from_result :=
  match fuel with
  | O => fun _ => Fuel
  | S fuel =>
      act _ <- s_lift (assert "from_stack: accum level" (st_level accum <=? first_level)%N);
      act _ <- s_lift (assert "from_stack: max level" (first_level <? max_level)%N);
      let next_name := sa_name s in
      act ' (o, s) <- sa_next_archive s;
      act ' (vec, next_level) <- s_lift (unwrap "stack was unexpectedly empty" o);
      act leaf_tree <- s_leaf vec None;
      act ' (shorter, final_level, final_name, small_tree) <-
        match next_level with
        | None => s_ret (sa_new, None, None, leaf_tree)
        | Some lev =>
            if (lev <? first_level)%N
            then s_tail_from_stack fuel s lev next_name leaf_tree first_level
            else s_ret (s, Some lev, next_name, leaf_tree)
        end;
      act new_tree <- s_bin small_tree first_level first_name accum;
      match final_level with
      | None => s_ret (sa_new, None, None, new_tree)
      | Some lev =>
          if (lev <? max_level)%N
          then s_tail_from_stack fuel shorter lev final_name new_tree max_level
          else s_ret (shorter, Some lev, final_name, new_tree)
      end
  end.

(** [memo_from(&AtTail)], src/raz.rs:717-778. *)
Definition s_from_at_tail (k : nat) (s : sastack E level) : rm (sraz_tree E M) :=
  let nm := sa_name s in
  act ' (o, s') <- sa_next_archive s;
  match o with
  | None => s_mk_raz_tree None
  | Some (vec, None) => act t <- s_leaf vec None; s_mk_raz_tree (Some t)
  | Some (vec, Some lev) =>
      act first_tree <- s_leaf vec None;
      act ' (s2, l, n, t) <- s_tail_from_stack k s' lev nm first_tree u32_max;
      act _ <- s_lift (assert "memo_from: l" (match l with None => true | _ => false end));
      act _ <- s_lift (assert "memo_from: n" (match n with None => true | _ => false end));
      act _ <- s_lift (assert "memo_from: s" (sa_is_empty s2));
      s_mk_raz_tree (Some t)
  end.

(** [from_stack] for [AtHead], src/raz.rs:806-838. *)
Fixpoint s_head_from_stack (fuel : nat) (s : sastack E level) (first_level : level)
    (first_name : option name) (accum : stree rdata) (max_level : level) : rm s_from_result :=
  match fuel with
  | O => fun _ => Fuel
  | S fuel =>
      act _ <- s_lift (assert "from_stack: accum level" (st_level accum <? first_level)%N);
      act _ <- s_lift (assert "from_stack: max level" (first_level <=? max_level)%N);
      let next_name := sa_name s in
      act ' (o, s) <- sa_next_archive s;
      act ' (vec, next_level) <- s_lift (unwrap "stack was unexpectedly empty" o);
      act leaf_tree <- s_leaf (rev vec) None;
      act ' (shorter, final_level, final_name, small_tree) <-
        match next_level with
        | None => s_ret (sa_new, None, None, leaf_tree)
        | Some lev =>
            if (lev <=? first_level)%N
            then s_head_from_stack fuel s lev next_name leaf_tree first_level
            else s_ret (s, Some lev, next_name, leaf_tree)
        end;
      act new_tree <- s_bin accum first_level first_name small_tree;
      match final_level with
      | None => s_ret (sa_new, None, None, new_tree)
      | Some lev =>
          if (lev <=? max_level)%N
          then s_head_from_stack fuel shorter lev final_name new_tree max_level
          else s_ret (shorter, Some lev, final_name, new_tree)
      end
  end.

(** [memo_from(&AtHead)], src/raz.rs:792-858. *)
Definition s_from_at_head (k : nat) (s : sastack E level) : rm (sraz_tree E M) :=
  let nm := sa_name s in
  act ' (o, s') <- sa_next_archive s;
  match o with
  | None => s_mk_raz_tree None
  | Some (vec, None) => act t <- s_leaf (rev vec) None; s_mk_raz_tree (Some t)
  | Some (vec, Some lev) =>
      act first_tree <- s_leaf (rev vec) None;
      act ' (s2, l, n, t) <- s_head_from_stack k s' lev nm first_tree u32_max;
      act _ <- s_lift (assert "memo_from: l" (match l with None => true | _ => false end));
      act _ <- s_lift (assert "memo_from: n" (match n with None => true | _ => false end));
      act _ <- s_lift (assert "memo_from: s" (sa_is_empty s2));
      s_mk_raz_tree (Some t)
  end.
End Raz.
