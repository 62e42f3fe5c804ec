(** * [memo_from] of src/raz.rs with its memo table.

    The recursive builders of [memo_from] call each other through [memo!] (src/raz.rs:719-729
    and 794-804). RazModel.v reads these calls as plain ones; here they go through the table
    of MemoModel.v, with the simplifications listed there. All five arguments are compared. *)

From Verif Require Import Base StackModel AStackModel LevelTreeModel TreeCursorModel RazMetaModel RazModel
  MemoModel.

Section From.
Context {E M : Type} {RM : RazMeta E M} (eqE : forall x y : E, {x = y} + {x <> y})
  (eqD : forall x y : tree_data E M, {x = y} + {x <> y}).
Notation rtree := (tree (tree_data E M)).

(** [PartialEq] of [Stack] and [AStack], derived at src/stack.rs:22-36 and
    src/archive_stack.rs:34; through the cells. *)
Fixpoint head_same (h h' : head (level * list E)) : bool :=
  match h, h' with
  | Head nm (m, v) n, Head nm' (m', v') n' =>
      (if oname_eq_dec nm nm' then true else false)
      && (m =? m')%N
      && (if list_eq_dec eqE v v' then true else false)
      && match n, n' with
         | None, None => true
         | Some x, Some y => head_same x y
         | _, _ => false
         end
  end.
Definition astack_same (s s' : astack E level) : bool :=
  (if list_eq_dec eqE (current s) (current s') then true else false)
  && match archived s, archived s' with
     | None, None => true
     | Some h, Some h' => head_same h h'
     | _, _ => false
     end.

(** The arguments [s], [l], [n], [t] and [m] of [from_stack]. *)
Definition from_key : Type := astack E level * level * option name * rtree * level.
Definition from_same (k k' : from_key) : bool :=
  match k, k' with
  | (s, l, n, t, m), (s', l', n', t', m') =>
      astack_same s s' && (l =? l')%N
      && (if oname_eq_dec n n' then true else false)
      && tree_same eqD t t' && (m =? m')%N
  end.
Notation from_tab := (mtab from_key (@from_result E M)).

(** [from_stack_memo], src/raz.rs:719-729 and 794-804: a plain call without a name,
    otherwise a memoised one under the left fork of the name. *)
Definition from_memo (k : from_key)
    (body : from_tab -> res (@from_result E M * from_tab * list from_key)) (tab : from_tab)
    : res (@from_result E M * from_tab * list from_key) :=
  match k with
  | (_, _, n, _, _) => memo_opt from_same (fork_left n) k body tab
  end.

(** [from_stack] for [AtTail], src/raz.rs:731-762. The calls whose body has run are
    listed as in MemoModel.v. *)
Fixpoint m_tail_from_stack (fuel : nat) (s : astack E level) (first_level : level)
    (first_name : option name) (accum : rtree) (max_level : level) (tab : from_tab)
    : res (@from_result E M * from_tab * list from_key) :=
  match fuel with
  | O => Fuel
  | S fuel =>
      let me := (s, first_level, first_name, accum, max_level) in
      do _ <- assert "from_stack: accum level" (t_level accum <=? first_level)%N;
      do _ <- assert "from_stack: max level" (first_level <? max_level)%N;
      let next_name := as_name s in
      do ' (o, s) <- as_next_archive s;
      do ' (vec, next_level) <- unwrap "stack was unexpectedly empty" o;
      do leaf_tree <- leaf vec None;
      do ' (r, tab1, lg1) <-
        match next_level with
        | None => Ok ((as_new, None, None, leaf_tree), tab, [])
        | Some lev =>
            if (lev <? first_level)%N
            then from_memo (s, lev, next_name, leaf_tree, first_level)
                   (m_tail_from_stack fuel s lev next_name leaf_tree first_level) tab
            else Ok ((s, Some lev, next_name, leaf_tree), tab, [])
        end;
      let '(shorter, final_level, final_name, small_tree) := r in
      do new_tree <- bin small_tree first_level first_name accum;
      match final_level with
      | None => Ok ((as_new, None, None, new_tree), tab1, me :: lg1)
      | Some lev =>
          if (lev <? max_level)%N
          then
            do ' (r, tab2, lg2) <- from_memo (shorter, lev, final_name, new_tree, max_level)
              (m_tail_from_stack fuel shorter lev final_name new_tree max_level) tab1;
            Ok (r, tab2, me :: lg1 ++ lg2)
          else Ok ((shorter, Some lev, final_name, new_tree), tab1, me :: lg1)
      end
  end.

(** [memo_from(&AtTail)], src/raz.rs:717-778. *)
Definition m_from_at_tail (s : astack E level) (tab : from_tab)
    : res (raz_tree E M * from_tab * list from_key) :=
  let nm := as_name s in
  do ' (o, s') <- as_next_archive s;
  match o with
  | None => do t <- mk_raz_tree None; Ok (t, tab, [])
  | Some (vec, None) => do t <- leaf vec None; do t <- mk_raz_tree (Some t); Ok (t, tab, [])
  | Some (vec, Some lev) =>
      do first_tree <- leaf vec None;
      do ' (r, tab', lg) <- from_memo (s', lev, nm, first_tree, u32_max)
        (m_tail_from_stack (S (S (archives s))) s' lev nm first_tree u32_max) tab;
      let '(s2, l, n, t) := r in
      do _ <- assert "memo_from: l" (match l with None => true | _ => false end);
      do _ <- assert "memo_from: n" (match n with None => true | _ => false end);
      do _ <- assert "memo_from: s" (as_is_empty s2);
      do t <- mk_raz_tree (Some t);
      Ok (t, tab', lg)
  end.

(** [from_stack] for [AtHead], src/raz.rs:806-838. *)
Fixpoint m_head_from_stack (fuel : nat) (s : astack E level) (first_level : level)
    (first_name : option name) (accum : rtree) (max_level : level) (tab : from_tab)
    : res (@from_result E M * from_tab * list from_key) :=
  match fuel with
  | O => Fuel
  | S fuel =>
      let me := (s, first_level, first_name, accum, max_level) in
      do _ <- assert "from_stack: accum level" (t_level accum <? first_level)%N;
      do _ <- assert "from_stack: max level" (first_level <=? max_level)%N;
      let next_name := as_name s in
      do ' (o, s) <- as_next_archive s;
      do ' (vec, next_level) <- unwrap "stack was unexpectedly empty" o;
      do leaf_tree <- leaf (rev vec) None;
      do ' (r, tab1, lg1) <-
        match next_level with
        | None => Ok ((as_new, None, None, leaf_tree), tab, [])
        | Some lev =>
            if (lev <=? first_level)%N
            then from_memo (s, lev, next_name, leaf_tree, first_level)
                   (m_head_from_stack fuel s lev next_name leaf_tree first_level) tab
            else Ok ((s, Some lev, next_name, leaf_tree), tab, [])
        end;
      let '(shorter, final_level, final_name, small_tree) := r in
      do new_tree <- bin accum first_level first_name small_tree;
      match final_level with
      | None => Ok ((as_new, None, None, new_tree), tab1, me :: lg1)
      | Some lev =>
          if (lev <=? max_level)%N
          then
            do ' (r, tab2, lg2) <- from_memo (shorter, lev, final_name, new_tree, max_level)
              (m_head_from_stack fuel shorter lev final_name new_tree max_level) tab1;
            Ok (r, tab2, me :: lg1 ++ lg2)
          else Ok ((shorter, Some lev, final_name, new_tree), tab1, me :: lg1)
      end
  end.

(** [memo_from(&AtHead)], src/raz.rs:792-858. *)
Definition m_from_at_head (s : astack E level) (tab : from_tab)
    : res (raz_tree E M * from_tab * list from_key) :=
  let nm := as_name s in
  do ' (o, s') <- as_next_archive s;
  match o with
  | None => do t <- mk_raz_tree None; Ok (t, tab, [])
  | Some (vec, None) => do t <- leaf (rev vec) None; do t <- mk_raz_tree (Some t); Ok (t, tab, [])
  | Some (vec, Some lev) =>
      do first_tree <- leaf (rev vec) None;
      do ' (r, tab', lg) <- from_memo (s', lev, nm, first_tree, u32_max)
        (m_head_from_stack (S (S (archives s))) s' lev nm first_tree u32_max) tab;
      let '(s2, l, n, t) := r in
      do _ <- assert "memo_from: l" (match l with None => true | _ => false end);
      do _ <- assert "memo_from: n" (match n with None => true | _ => false end);
      do _ <- assert "memo_from: s" (as_is_empty s2);
      do t <- mk_raz_tree (Some t);
      Ok (t, tab', lg)
  end.
End From.
