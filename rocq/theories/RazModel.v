(** * Model of src/raz.rs. *)

From Verif Require Import Base StackModel AStackModel LevelTreeModel TreeCursorModel RazMetaModel.

(** [TreeData], src/raz.rs:56-61; [Rc<Vec<E>>] is the list. *)
Inductive tree_data (E M : Type) : Type :=
| Dummy
| Branch (l r : M)
| Leaf (v : list E).
Arguments Dummy {E M}.
Arguments Branch {E M} l r.
Arguments Leaf {E M} v.

Section Raz.
Context {E M : Type} {RM : RazMeta E M}.

Notation rtree := (tree (tree_data E M)).
Notation rcursor := (cursor (tree_data E M)).

(** The closure [meta] of [rebuild], src/raz.rs:70-77. *)
Definition branch_meta (lev : level) (nm : option name) (b : option (tree_data E M)) : res M :=
  match b with
  | None => Ok (from_none lev nm)
  | Some Dummy => Panic "rebuild: unreachable"
  | Some (Leaf v) => Ok (from_vec v lev nm)
  | Some (Branch l r) => Ok (from_meta l r lev nm)
  end.

(** [TreeData::rebuild], src/raz.rs:63-82. *)
Definition td_rebuild (l : option (tree_data E M)) (old : tree_data E M) (lev : level)
    (nm : option name) (r : option (tree_data E M)) : res (tree_data E M) :=
  match old with
  | Leaf v => Ok (Leaf v)
  | _ =>
      do ml <- branch_meta lev nm l;
      do mr <- branch_meta lev nm r;
      Ok (Branch ml mr)
  end.

#[export] Instance td_update : TreeUpdate (tree_data E M) := td_rebuild.

(** [Raz], src/raz.rs:45-51. *)
Record raz : Type := Raz {
  z_l_forest : rcursor;
  z_l_stack : astack E level;
  z_r_stack : astack E level;
  z_r_forest : rcursor
}.

(** [RazTree], src/raz.rs:87-91. *)
Record raz_tree : Type := RazTree {
  rt_meta : M;
  rt_tree : option rtree
}.

(** [treetop_meta], src/raz.rs:93-105. *)
Definition treetop_meta (t : option rtree) : res M :=
  match t with
  | None => Ok (from_none 0%N None)
  | Some t =>
      match t_peek t with
      | Dummy => Panic "treetop_meta: unreachable"
      | Leaf v => Ok (from_vec v 0%N None)
      | Branch l r => Ok (from_meta l r 0%N None)
      end
  end.

(** [RazTree{meta: treetop_meta(t), tree: t}], the form every constructor uses. *)
Definition mk_raz_tree (t : option rtree) : res raz_tree :=
  do m <- treetop_meta t; Ok (RazTree m t).

(** [leaf] and [bin], src/raz.rs:687-708. *)
Definition leaf (v : list E) (n : option name) : res rtree :=
  unwrap "leaf: unwrap" (tree_new 0%N n (Leaf v) None None).
Definition bin (t1 : rtree) (l : level) (n : option name) (t2 : rtree) : res rtree :=
  do td <- td_rebuild (Some (t_peek t1)) Dummy l n (Some (t_peek t2));
  unwrap "bin: unwrap" (tree_new l n td (Some t1) (Some t2)).

(** [is_empty], [empty], src/raz.rs:110-115. *)
Definition rt_is_empty (t : raz_tree) : bool :=
  match rt_tree t with None => true | Some _ => false end.
Definition rt_empty : res raz_tree := mk_raz_tree None.

(** [join], src/raz.rs:121-131. *)
Definition rt_join (lt : raz_tree) (lev : level) (nm : option name) (rt : raz_tree)
    : res (option raz_tree) :=
  match rt_tree lt, rt_tree rt with
  | Some l, Some r =>
      do t <- bin l lev nm r;
      do rt <- mk_raz_tree (Some t);
      Ok (Some rt)
  | _, _ => Ok None
  end.

(** [from_vec], src/raz.rs:137-141. *)
Definition rt_from_vec (v : list E) : res (option raz_tree) :=
  match v with
  | [] => Ok None
  | _ =>
      do t <- leaf v None;
      do rt <- mk_raz_tree (Some t);
      Ok (Some rt)
  end.

(** [fold_up], src/raz.rs:148-172. *)
Definition rt_fold_up {R} (t : raz_tree) (init : E -> R) (bin : R -> R -> R) : res (option R) :=
  match rt_tree t with
  | None => Ok None
  | Some tr =>
      do x <- t_fold_up
        (fun l c r =>
           match c with
           | Leaf v =>
               match map init v with
               | [] => Panic "leaf with empty vec"
               | first :: rest => Ok (fold_left bin rest first)
               end
           | _ =>
               match l, r with
               | None, None => Panic "branch with no data"
               | Some x, None => Ok x
               | None, Some x => Ok x
               | Some x1, Some x2 => Ok (bin x1 x2)
               end
           end) tr;
      Ok (Some x)
  end.

(** [fold_up_nl], src/raz.rs:179-204. *)
Definition rt_fold_up_nl {R} (t : raz_tree) (init : E -> R) (bin : R -> R -> R)
    (binnl : R -> level -> option name -> R -> R) : res (option R) :=
  match rt_tree t with
  | None => Ok None
  | Some tr =>
      do x <- t_fold_up_meta
        (fun l c lv n r =>
           match c with
           | Leaf v =>
               match map init v with
               | [] => Panic "leaf with empty vec"
               | first :: rest => Ok (fold_left bin rest first)
               end
           | _ =>
               match l, r with
               | None, None => Panic "branch with no data"
               | Some x, None => Ok x
               | None, Some x => Ok x
               | Some x1, Some x2 => Ok (binnl x1 lv n x2)
               end
           end) tr;
      Ok (Some x)
  end.

(** [fold_up_gauged], src/raz.rs:210-230. The user functions may panic here
    (the reverse and filter examples unwrap), hence [res]. *)
Definition rt_fold_up_gauged {R} (t : raz_tree) (init : list E -> res R)
    (bin : R -> level -> option name -> R -> res R) : res (option R) :=
  match rt_tree t with
  | None => Ok None
  | Some tr =>
      do x <- t_fold_up_meta
        (fun l c lv n r =>
           match c with
           | Leaf v => init v
           | _ =>
               match l, r with
               | None, None => Panic "branch with no data"
               | Some x, None => Ok x
               | None, Some x => Ok x
               | Some x1, Some x2 => bin x1 lv n x2
               end
           end) tr;
      Ok (Some x)
  end.

(** [fold_lr_meta], src/raz.rs:239-260. *)
Definition rt_fold_lr_meta {R} (t : raz_tree) (init : R) (bin : R -> E -> R)
    (meta : R -> level * option name -> R) : R :=
  match rt_tree t with
  | None => init
  | Some tr =>
      t_fold_lr_meta
        (fun a e l n =>
           match e with
           | Leaf v => fold_left bin v a
           | _ => meta a (l, n)
           end) tr (Some (NStr "start")) init
  end.

(** [fold_lr], src/raz.rs:233-236. *)
Definition rt_fold_lr {R} (t : raz_tree) (init : R) (bin : R -> E -> R) : R :=
  rt_fold_lr_meta t init bin (fun a _ => a).

(** [fold_lr_archive], src/raz.rs:263-285. *)
Definition rt_fold_lr_archive {R} (t : raz_tree) (init : R) (bin : R -> E -> R)
    (finbin : R -> option name -> R) (meta : R -> level -> R) : R :=
  match rt_tree t with
  | None => init
  | Some tr =>
      t_fold_lr_meta
        (fun a e l n =>
           match e with
           | Leaf v => finbin (fold_left bin v a) n
           | _ => meta a l
           end) tr (Some (NStr "start")) init
  end.

(** The empty Raz: [Raz::new], src/raz.rs:432-439 (capacity not observable). *)
Definition raz_new : raz := Raz c_new as_new as_new c_new.

(** The search loop of [focus], src/raz.rs:335-352. [inr None] is the early
    [return None]. *)
Definition focus_step (s : rcursor * Index) : res ((rcursor * Index) + option (rcursor * Index)) :=
  let (c, index) := s in
  do d <- unwrap "focus: peek" (c_peek c);
  match d with
  | Branch l r =>
      do nav <- navigate l r index;
      match nav with
      | NavLeft i =>
          let (b, c') := down_left c in
          do _ <- assert "focus: down_left" b; Ok (inl (c', i))
      | NavRight i =>
          let (b, c') := down_right c in
          do _ <- assert "focus: down_right" b; Ok (inl (c', i))
      | NavHere =>
          let (b, c') := down_left c in
          do _ <- assert "focus: down_left" b;
          do c'' <- down_right_all c';
          Ok (inl (c'', idx_last))
      | NavNowhere => Ok (inr None)
      end
  | _ => Ok (inr (Some (c, index)))
  end.

(** [focus], src/raz.rs:321-377. *)
Definition rt_focus (t : raz_tree) (index : Index) : res (option raz) :=
  match rt_tree t with
  | None => Ok (Some raz_new)
  | Some tr =>
      (* step 1 *)
      do found <- loop (S (t_size tr)) focus_step (c_from tr, index);
      match found with
      | None => Ok None
      | Some (c, index) =>
          (* step 2 *)
          let '(l_cursor, t, r_cursor) := c_split c in
          match t with
          | Some t =>
              match t_peek t with
              | Leaf v =>
                  do ' (l_slice, r_slice) <- split_vec v index;
                  Ok (Some (Raz l_cursor (as_extend as_new l_slice)
                              (as_extend_rev as_new r_slice) r_cursor))
              | _ => Panic "focus: unreachable"
              end
          | None => Panic "focus: unreachable"
          end
      end
  end.

(** [focus_left], src/raz.rs:380-416. *)
Definition rt_focus_left (t : raz_tree) : res raz :=
  match rt_tree t with
  | None => Ok raz_new
  | Some tr =>
      do c <- down_left_all (c_from tr);
      let '(l_cursor, t, r_cursor) := c_split c in
      match t with
      | Some t =>
          match t_peek t with
          | Leaf v => Ok (Raz l_cursor as_new (as_extend_rev as_new v) r_cursor)
          | _ => Panic "focus_left: unreachable"
          end
      | None => Panic "focus_left: unreachable"
      end
  end.

(** [push_left], [push_right], src/raz.rs:559-569. *)
Definition push_left (z : raz) (e : E) : nat * raz :=
  let s := as_push (z_l_stack z) e in
  (as_active_len s, Raz (z_l_forest z) s (z_r_stack z) (z_r_forest z)).
Definition push_right (z : raz) (e : E) : nat * raz :=
  let s := as_push (z_r_stack z) e in
  (as_active_len s, Raz (z_l_forest z) (z_l_stack z) s (z_r_forest z)).

(** [peek_left], [peek_right], src/raz.rs:571-597. *)
Definition peek_left (z : raz) : res (option E) :=
  if as_is_empty (z_l_stack z) then
    do ' (u, c) <- up (z_l_forest z);
    if up_failed u then Ok None
    else
      let (_, c) := down_left c in
      do c <- down_right_all c;
      match c_peek c with
      | Some (Leaf v) => Ok (vec_last v)
      | _ => Panic "peek_left: no left tree leaf"
      end
  else as_peek (z_l_stack z).
Definition peek_right (z : raz) : res (option E) :=
  if as_is_empty (z_r_stack z) then
    do ' (u, c) <- up (z_r_forest z);
    if up_failed u then Ok None
    else
      let (_, c) := down_right c in
      do c <- down_left_all c;
      match c_peek c with
      | Some (Leaf v) => Ok (hd_error v)
      | _ => Panic "peek_right: no right tree leaf"
      end
  else as_peek (z_r_stack z).

(** [archive_left], [archive_right], src/raz.rs:599-605. *)
Definition archive_left (z : raz) (lev : level) (nm : option name) : raz :=
  Raz (z_l_forest z) (snd (as_archive (z_l_stack z) nm lev)) (z_r_stack z) (z_r_forest z).
Definition archive_right (z : raz) (lev : level) (nm : option name) : raz :=
  Raz (z_l_forest z) (z_l_stack z) (snd (as_archive (z_r_stack z) nm lev)) (z_r_forest z).

(** [pop_left], src/raz.rs:611-623. *)
Definition pop_left (z : raz) : res (option E * raz) :=
  if as_is_empty (z_l_stack z) then
    do ' (u, c) <- up (z_l_forest z);
    if up_failed u then Ok (None, Raz c (z_l_stack z) (z_r_stack z) (z_r_forest z))
    else
      let (_, c) := down_left_force ForceDiscard c in
      do c <- down_right_all c;
      match c_peek c with
      | Some (Leaf v) =>
          do ' (e, s) <- as_pop (as_extend (z_l_stack z) v);
          Ok (e, Raz c s (z_r_stack z) (z_r_forest z))
      | _ => Panic "pop_left: no left tree leaf"
      end
  else
    do ' (e, s) <- as_pop (z_l_stack z);
    Ok (e, Raz (z_l_forest z) s (z_r_stack z) (z_r_forest z)).

(** [pop_right], src/raz.rs:628-640. *)
Definition pop_right (z : raz) : res (option E * raz) :=
  if as_is_empty (z_r_stack z) then
    do ' (u, c) <- up (z_r_forest z);
    if up_failed u then Ok (None, Raz (z_l_forest z) (z_l_stack z) (z_r_stack z) c)
    else
      let (_, c) := down_right_force ForceDiscard c in
      do c <- down_left_all c;
      match c_peek c with
      | Some (Leaf v) =>
          do ' (e, s) <- as_pop (as_extend_rev (z_r_stack z) v);
          Ok (e, Raz (z_l_forest z) (z_l_stack z) s c)
      | _ => Panic "pop_right: no right tree leaf"
      end
  else
    do ' (e, s) <- as_pop (z_r_stack z);
    Ok (e, Raz (z_l_forest z) (z_l_stack z) s (z_r_forest z)).

(** [.map(|n| name_pair(n, nmtree))], src/raz.rs:444 and 450. *)
Definition tree_name (n : option name) : option name :=
  option_map (fun n => NPair n (NStr "tree")) n.

(** Number of vectors an archive stack can still hand out (loop fuel). *)
Fixpoint head_len {T} (h : head T) : nat :=
  match h with Head _ _ n => S (match n with None => 0 | Some h' => head_len h' end) end.
Definition archives (s : astack E level) : nat :=
  match archived s with None => 0 | Some h => head_len h end.

(** One side of step 1 of [unfocus], src/raz.rs:450-454 and 455-459: the name,
    the level, the vector (if not empty) and the remaining stack. *)
Definition unfocus_side (s : astack E level)
    : res (option name * option level * option (list E) * astack E level) :=
  let nm := tree_name (as_name s) in
  do ' (o, s') <- as_next_archive s;
  match o with
  | Some (vec, lev) =>
      Ok (nm, lev, match vec with [] => None | _ => Some vec end, s')
  | None => Ok (nm, None, None, s')
  end.

(** The left loop of step 2 of [unfocus], src/raz.rs:482-489. *)
Definition unfocus_left_loop (s : astack E level) (lev : option level) (nm : option name)
    (c : rcursor) : res rcursor :=
  loop (S (S (archives s)))
    (fun '(s, lev, nm, next_nm, c) =>
       do ' (o, s') <- as_next_archive s;
       match o with
       | None => Ok (inr c)
       | Some (l_vec, next_lev) =>
           do lt <- unwrap "unfocus: leaf" (tree_new 0%N None (Leaf l_vec) None None);
           do lv <- unwrap "unfocus: l_lev" lev;
           do c' <- c_join (c_from lt) lv nm Dummy c;
           Ok (inl (s', next_lev, next_nm, tree_name (as_name s'), c'))
       end)
    (s, lev, nm, tree_name (as_name s), c).

(** The right loop of step 2 of [unfocus], src/raz.rs:490-498. *)
Definition unfocus_right_loop (s : astack E level) (lev : option level) (nm : option name)
    (c : rcursor) : res rcursor :=
  loop (S (S (archives s)))
    (fun '(s, lev, nm, next_nm, c) =>
       do ' (o, s') <- as_next_archive s;
       match o with
       | None => Ok (inr c)
       | Some (r_vec, next_lev) =>
           do rt <- unwrap "unfocus: leaf" (tree_new 0%N None (Leaf (rev r_vec)) None None);
           do lv <- unwrap "unfocus: r_lev" lev;
           do c' <- c_join c lv nm Dummy (c_from rt);
           Ok (inl (s', next_lev, next_nm, tree_name (as_name s'), c'))
       end)
    (s, lev, nm, tree_name (as_name s), c).

(** [unfocus], src/raz.rs:443-530. The local variables of the Rust function are
    threaded explicitly: [lnm/llev/ls] and [rnm/rlev/rs] are the names, levels and
    stacks of the two sides. *)
Definition unfocus (z : raz) : res raz_tree :=
  (* step 1 *)
  do ' (lnm, llev, lvec, ls) <- unfocus_side (z_l_stack z);
  do ' (rnm, rlev, rvec, rs) <- unfocus_side (z_r_stack z);
  do ' (vec, lnm, llev, ls, rnm, rlev, rs) <-
    match as_is_empty ls, lvec, rvec, as_is_empty rs with
    | _, Some v, None, _ => Ok (Some v, lnm, llev, ls, rnm, rlev, rs)
    | _, None, Some v, _ => Ok (Some (rev v), lnm, llev, ls, rnm, rlev, rs)
    | _, Some lv, Some rv, _ => Ok (Some (lv ++ rev rv), lnm, llev, ls, rnm, rlev, rs)
    | false, None, None, _ =>
        let lnm := tree_name (as_name ls) in
        do ' (o, ls) <- as_next_archive ls;
        do ' (v, lev) <- unwrap "unfocus: next_archive" o;
        Ok (Some v, lnm, lev, ls, rnm, rlev, rs)
    | true, None, None, false =>
        let rnm := tree_name (as_name rs) in
        do ' (o, rs) <- as_next_archive rs;
        do ' (v, lev) <- unwrap "unfocus: next_archive" o;
        Ok (Some (rev v), lnm, llev, ls, rnm, lev, rs)
    | true, None, None, true => Ok (None, lnm, llev, ls, rnm, rlev, rs)
    end;
  (* step 2 *)
  do ' (tr, lf, rf) <-
    match vec with
    | Some v =>
        do t0 <- unwrap "unfocus: leaf" (tree_new 0%N None (Leaf v) None None);
        do c <- unfocus_left_loop ls llev lnm (c_from t0);
        do c <- unfocus_right_loop rs rlev rnm c;
        do c <- up_all c;
        do t <- unwrap "unfocus: at_tree" (at_tree c);
        Ok (Some t, z_l_forest z, z_r_forest z)
    | None =>
        do ' (u, lf) <- up (z_l_forest z);
        if up_failed u then
          do ' (u, rf) <- up (z_r_forest z);
          if up_failed u then Ok (None, lf, rf)
          else
            do t <- unwrap "unfocus: right_tree" (right_tree rf);
            Ok (Some t, lf, rf)
        else
          do t <- unwrap "unfocus: left_tree" (left_tree lf);
          Ok (Some t, lf, z_r_forest z)
    end;
  match tr with
  | None => mk_raz_tree None
  | Some tr =>
      (* step 3 *)
      let jc := c_from tr in
      do ' (u, lf) <- up lf;
      do jc <-
        (if up_failed u then Ok jc
         else
           do lev <- unwrap "unfocus: peek_level" (peek_level lf);
           let nm := peek_name lf in
           let (_, lf) := down_left_force ForceDiscard lf in
           c_join lf lev nm Dummy jc);
      do ' (u, rf) <- up rf;
      do jc <-
        (if up_failed u then Ok jc
         else
           do lev <- unwrap "unfocus: peek_level" (peek_level rf);
           let nm := peek_name rf in
           let (_, rf) := down_right_force ForceDiscard rf in
           c_join jc lev nm Dummy rf);
      (* step 4 *)
      do jc <- up_all jc;
      mk_raz_tree (at_tree jc)
  end.

(** ** [memo_from] on archive stacks *)

(** Result of the recursive builders. *)
Definition from_result : Type := astack E level * option level * option name * rtree.

(** [from_stack] for [AtTail], src/raz.rs:731-762; [from_stack_memo] (719-729)
    only adds memoization. *)
Fixpoint tail_from_stack (fuel : nat) (s : astack E level) (first_level : level)
    (first_name : option name) (accum : rtree) (max_level : level) : res from_result :=
  match fuel with
  | O => Fuel
  | S fuel =>
      do _ <- assert "from_stack: accum level" (t_level accum <=? first_level)%N;
      do _ <- assert "from_stack: max level" (first_level <? max_level)%N;
      let next_name := as_name s in
      do ' (o, s) <- as_next_archive s;
      do ' (vec, next_level) <- unwrap "stack was unexpectedly empty" o;
      do leaf_tree <- leaf vec None;
      do ' (shorter, final_level, final_name, small_tree) <-
        match next_level with
        | None => Ok (as_new, None, None, leaf_tree)
        | Some lev =>
            if (lev <? first_level)%N
            then tail_from_stack fuel s lev next_name leaf_tree first_level
            else Ok (s, Some lev, next_name, leaf_tree)
        end;
      do new_tree <- bin small_tree first_level first_name accum;
      match final_level with
      | None => Ok (as_new, None, None, new_tree)
      | Some lev =>
          if (lev <? max_level)%N
          then tail_from_stack fuel shorter lev final_name new_tree max_level
          else Ok (shorter, Some lev, final_name, new_tree)
      end
  end.

(** [memo_from(&AtTail)], src/raz.rs:717-778. *)
Definition from_at_tail (s : astack E level) : res raz_tree :=
  let nm := as_name s in
  do ' (o, s') <- as_next_archive s;
  match o with
  | None => mk_raz_tree None
  | Some (vec, None) => do t <- leaf vec None; mk_raz_tree (Some t)
  | Some (vec, Some lev) =>
      do first_tree <- leaf vec None;
      do ' (s2, l, n, t) <- tail_from_stack (S (S (archives s))) s' lev nm first_tree u32_max;
      do _ <- assert "memo_from: l" (match l with None => true | _ => false end);
      do _ <- assert "memo_from: n" (match n with None => true | _ => false end);
      do _ <- assert "memo_from: s" (as_is_empty s2);
      mk_raz_tree (Some t)
  end.

(** [from_stack] for [AtHead], src/raz.rs:806-838. *)
Fixpoint head_from_stack (fuel : nat) (s : astack E level) (first_level : level)
    (first_name : option name) (accum : rtree) (max_level : level) : res from_result :=
  match fuel with
  | O => Fuel
  | S fuel =>
      do _ <- assert "from_stack: accum level" (t_level accum <? first_level)%N;
      do _ <- assert "from_stack: max level" (first_level <=? max_level)%N;
      let next_name := as_name s in
      do ' (o, s) <- as_next_archive s;
      do ' (vec, next_level) <- unwrap "stack was unexpectedly empty" o;
      do leaf_tree <- leaf (rev vec) None;
      do ' (shorter, final_level, final_name, small_tree) <-
        match next_level with
        | None => Ok (as_new, None, None, leaf_tree)
        | Some lev =>
            if (lev <=? first_level)%N
            then head_from_stack fuel s lev next_name leaf_tree first_level
            else Ok (s, Some lev, next_name, leaf_tree)
        end;
      do new_tree <- bin accum first_level first_name small_tree;
      match final_level with
      | None => Ok (as_new, None, None, new_tree)
      | Some lev =>
          if (lev <=? max_level)%N
          then head_from_stack fuel shorter lev final_name new_tree max_level
          else Ok (shorter, Some lev, final_name, new_tree)
      end
  end.

(** [memo_from(&AtHead)], src/raz.rs:792-858. *)
Definition from_at_head (s : astack E level) : res raz_tree :=
  let nm := as_name s in
  do ' (o, s') <- as_next_archive s;
  match o with
  | None => mk_raz_tree None
  | Some (vec, None) => do t <- leaf (rev vec) None; mk_raz_tree (Some t)
  | Some (vec, Some lev) =>
      do first_tree <- leaf (rev vec) None;
      do ' (s2, l, n, t) <- head_from_stack (S (S (archives s))) s' lev nm first_tree u32_max;
      do _ <- assert "memo_from: l" (match l with None => true | _ => false end);
      do _ <- assert "memo_from: n" (match n with None => true | _ => false end);
      do _ <- assert "memo_from: s" (as_is_empty s2);
      mk_raz_tree (Some t)
  end.

End Raz.

Arguments raz E M : clear implicits.
Arguments raz_tree E M : clear implicits.

(** [map], src/raz.rs:288-317. *)
Definition rt_map {E M R N} {RM : RazMeta E M} {RN : RazMeta R N}
    (f : E -> R) (t : raz_tree E M) : res (raz_tree R N) :=
  do tr <-
    match rt_tree t with
    | None => Ok None
    | Some tr =>
        do x <- t_map
          (fun d lev n l r =>
             match d with
             | Leaf v => Ok (Leaf (map f v))
             | _ => td_rebuild (peek_op l) Dummy lev n (peek_op r)
             end) tr;
        Ok (Some x)
    end;
  mk_raz_tree tr.
