(** * The two [memo_from] of src/raz.rs over the store, with memo entries that know what was
      read and what was written.

    As IncMapModel, for a computation that reads cells of stacks and of trees and makes cells
    of trees, and whose calls have five arguments. An entry holds the arguments, the cells
    read and written (each with its content) and the result. A call is answered from its
    entry when the arguments are the recorded ones, compared as handles, and every cell read
    or written then has the recorded content now; otherwise the body runs and the entry is
    replaced. The two impls have their own [from_stack], so their own table. Simplifications:
    those of IncModel. *)

From Verif Require Import Base StackModel AStackModel LevelTreeModel TreeCursorModel RazMetaModel RazModel MemoModel StoreModel IncModel
  StoreMapModel.

(** A cell and its content. *)
Definition cseen (T A : Type) : Type := loc * cell_data T A.

(** A memo entry, and the table of entries. *)
Record centry (T A K R : Type) : Type := CEntry { ce_arg : K; ce_seen : list (cseen T A); ce_res : R }.
Arguments CEntry {T A K R} ce_arg ce_seen ce_res.
Arguments ce_arg {T A K R} _.
Arguments ce_seen {T A K R} _.
Arguments ce_res {T A K R} _.
Definition ctab (T A K R : Type) : Type := loc -> option (centry T A K R).
Definition no_centries {T A K R} : ctab T A K R := fun _ => None.
Definition c_set {T A K R} (tab : ctab T A K R) (a : loc) (e : centry T A K R) : ctab T A K R :=
  fun b => if loc_eq_dec b a then Some e else tab b.

(** Computations over the store that use the table: the result, the store left, the cells
    read and written, the table left, and the arguments of the calls whose body has run. *)
Definition vm (T A K R X : Type) : Type :=
  store T A -> ctab T A K R -> res (X * store T A * list (cseen T A) * ctab T A K R * list K).
Definition v_ret {T A K R X} (x : X) : vm T A K R X := fun st tab => Ok (x, st, [], tab, []).
Definition v_bind {T A K R X Y} (m : vm T A K R X) (f : X -> vm T A K R Y) : vm T A K R Y :=
  fun st tab =>
    do ' (x, st1, s1, tab1, lg1) <- m st tab;
    do ' (y, st2, s2, tab2, lg2) <- f x st1 tab1;
    Ok (y, st2, s1 ++ s2, tab2, lg1 ++ lg2).
Definition v_lift {T A K R X} (m : res X) : vm T A K R X := fun st tab => do x <- m; Ok (x, st, [], tab, []).
Notation "'trk' x <- m ; k" := (v_bind m (fun x => k))
  (at level 200, x name, m at level 100, k at level 200).
Notation "'trk' ' p <- m ; k" := (v_bind m (fun p => k))
  (at level 200, p pattern, m at level 100, k at level 200).

Section Same.
Context {T A : Type} (eqT : forall x y : T, {x = y} + {x <> y}) (eqA : forall x y : A, {x = y} + {x <> y}).

(** [PartialEq] of [Head], src/stack.rs:27-31: a reference to a cell is compared by its
    address, a [put] by its content. *)
Fixpoint shead_same (h h' : shead T) : bool :=
  match h, h' with
  | HPut e n, HPut e' n' =>
      (if eqT e e' then true else false)
      && match n, n' with
         | None, None => true
         | Some x, Some y => shead_same x y
         | _, _ => false
         end
  | HCell a, HCell a' => if loc_eq_dec a a' then true else false
  | _, _ => false
  end.
Definition oshead_same (o p : option (shead T)) : bool :=
  match o, p with
  | None, None => true
  | Some x, Some y => shead_same x y
  | _, _ => false
  end.

(** The cell still has this content ([Body], src/stack.rs:32-36; [TreeNode],
    src/level_tree.rs:27-31). *)
Definition cell_same (c c' : cell_data T A) : bool :=
  match c, c' with
  | CBody e n, CBody e' n' => (if eqT e e' then true else false) && oshead_same n n'
  | CNode d l r, CNode d' l' r' =>
      (if eqA d d' then true else false) && ostree_same eqA l l' && ostree_same eqA r r'
  | _, _ => false
  end.
Definition cholds (st : store T A) (s : cseen T A) : bool :=
  match st (fst s) with Some c => cell_same (snd s) c | None => false end.
End Same.

Section Cells.
Context {T A : Type} (eqT : forall x y : T, {x = y} + {x <> y}) (eqA : forall x y : A, {x = y} + {x <> y}) {Nsp : here}.
Context {K R : Type}.

(** The body of the call with these arguments runs: nothing in the code, it is counted. *)
Definition v_enter (k : K) : vm T A K R unit := fun st tab => Ok (tt, st, [], tab, [k]).

(** [force(&self.main)], src/stack.rs:94, 104. *)
Definition v_force_head (h : shead T) : vm T A K R (T * option (shead T)) :=
  fun st tab =>
    do x <- unwrap "force: no such body" (head_look st h);
    Ok (x, st, match h with HPut _ _ => [] | HCell a => [(a, CBody (fst x) (snd x))] end, tab, []).

(** [force(&self.link)], src/level_tree.rs:88. *)
Definition v_force_tree (t : stree A) : vm T A K R (A * option (stree A) * option (stree A)) :=
  fun st tab =>
    do x <- unwrap "force: no such node" (tree_look st t);
    Ok (x, st, match t with TPut _ _ _ _ => [] | TCell _ a => [(a, CNode (fst (fst x)) (snd (fst x)) (snd x))] end, tab, []).
Definition v_peek (t : stree A) : vm T A K R A := trk ' (d, _, _) <- v_force_tree t; v_ret d.

(** [Tree::new], src/level_tree.rs:36-73. *)
Definition v_tree_new (lev : level) (nm : option name) (data : A) (l r : option (stree A))
    : vm T A K R (option (stree A)) :=
  fun st tab =>
    match nm with
    | Some n =>
        Ok (Some (TCell lev (path, n)), write st (path, n) (CNode data l r), [((path, n), CNode data l r)], tab, [])
    | None => Ok (Some (TPut lev data l r), st, [], tab, [])
    end.

(** [Stack::peek] and [pull], src/stack.rs:56-71. *)
Definition v_ss_peek (s : option (shead T)) : vm T A K R (option T) :=
  match s with
  | None => v_ret None
  | Some h => trk ' (e, _) <- v_force_head h; v_ret (Some e)
  end.
Definition v_ss_pull (s : option (shead T)) : vm T A K R (option (option (shead T))) :=
  match s with
  | None => v_ret None
  | Some h => trk ' (_, n) <- v_force_head h; v_ret (Some n)
  end.

(** [memo!(n =>> body, k ..)]; a plain call without a name. *)
Definition v_memo (same : K -> K -> bool) (n : name) (k : K) (body : vm T A K R R) : vm T A K R R :=
  fun st tab =>
    let rerun :=
      do ' (r, st', s, tab', lg) <- body st tab;
      Ok (r, st', s, c_set tab' (path, n) (CEntry k s r), lg) in
    match tab (path, n) with
    | Some e =>
        if same k (ce_arg e) && forallb (cholds eqT eqA st) (ce_seen e) then Ok (ce_res e, st, ce_seen e, tab, [])
        else rerun
    | None => rerun
    end.
Definition v_memo_opt (same : K -> K -> bool) (n : option name) (k : K) (body : vm T A K R R) : vm T A K R R :=
  match n with
  | Some n => v_memo same n k body
  | None => body
  end.
End Cells.

Section Raz.
Context {E M : Type} {RM : RazMeta E M} (eqE : forall x y : E, {x = y} + {x <> y})
  (eqD : forall x y : tree_data E M, {x = y} + {x <> y}) {Nsp : here}.
Notation rdata := (tree_data E M).

(** The elements of the stack of archives, [(M,Vec<E>)] at src/archive_stack.rs:39. *)
Definition eqL (x y : level * list E) : {x = y} + {x <> y}.
Proof. decide equality; [apply (list_eq_dec eqE)|apply N.eq_dec]. Defined.

(** [PartialEq] of [AStack], src/archive_stack.rs:34. *)
Definition sastack_same (s s' : sastack E level) : bool :=
  (if list_eq_dec eqE (sa_current s) (sa_current s') then true else false)
  && oshead_same eqL (sa_archived s) (sa_archived s').

(** The arguments [s], [l], [n], [t] and [m] of [from_stack]. *)
Definition vkey : Type := sastack E level * level * option name * stree rdata * level.
Definition vkey_same (k k' : vkey) : bool :=
  match k, k' with
  | (s, l, n, t, m), (s', l', n', t', m') =>
      sastack_same s s' && (l =? l')%N
      && (if oname_eq_dec n n' then true else false)
      && stree_same eqD t t' && (m =? m')%N
  end.
Notation vres := (@s_from_result E M).
Notation vm := (vm (level * list E) rdata vkey vres).

(** [next_archive], src/archive_stack.rs:120-132. *)
Definition v_next_archive (s : sastack E level) : vm (option (list E * option level) * sastack E level) :=
  if sa_is_empty s then v_ret (None, s)
  else if ss_is_empty (sa_archived s) then
    v_ret (Some (sa_current s, None), SAStack [] None)
  else
    trk o <- v_ss_peek (sa_archived s);
    trk ' (old_meta, vec) <- v_lift (unwrap "missing data" o);
    trk o <- v_ss_pull (sa_archived s);
    trk rest <- v_lift (unwrap "next_archive: pull" o);
    v_ret (Some (sa_current s, Some old_meta), SAStack vec rest).

(** [leaf] and [bin], src/raz.rs:687-708; [treetop_meta], src/raz.rs:93-106. *)
Definition v_leaf (v : list E) (n : option name) : vm (stree rdata) :=
  trk o <- v_tree_new 0%N n (Leaf v) None None;
  v_lift (unwrap "leaf: unwrap" o).
Definition v_bin (t1 : stree rdata) (l : level) (n : option name) (t2 : stree rdata) : vm (stree rdata) :=
  trk d1 <- v_peek t1;
  trk d2 <- v_peek t2;
  trk td <- v_lift (td_rebuild (Some d1) Dummy l n (Some d2));
  trk o <- v_tree_new l n td (Some t1) (Some t2);
  v_lift (unwrap "bin: unwrap" o).
Definition v_treetop_meta (t : option (stree rdata)) : vm M :=
  match t with
  | None => v_ret (from_none 0%N None)
  | Some t =>
      trk d <- v_peek t;
      match d with
      | Dummy => v_lift (Panic "treetop_meta: unreachable")
      | Leaf v => v_ret (from_vec v 0%N None)
      | Branch l r => v_ret (from_meta l r 0%N None)
      end
  end.
Definition v_mk_raz_tree (t : option (stree rdata)) : vm (sraz_tree E M) :=
  trk m <- v_treetop_meta t; v_ret (SRazTree m t).

(** [from_stack_memo], src/raz.rs:719-729 and 794-804: a plain call without a name,
    otherwise a memoised one under the left fork of the name. *)
Definition v_from_memo (k : vkey) (body : vm vres) : vm vres :=
  match k with
  | (_, _, n, _, _) => v_memo_opt eqL eqD vkey_same (fork_left n) k body
  end.

(** [from_stack] for [AtTail], src/raz.rs:731-762. *)
Fixpoint v_tail_from_stack (fuel : nat) (s : sastack E level) (first_level : level)
    (first_name : option name) (accum : stree rdata) (max_level : level) : vm vres :=
  match fuel with
  | O => v_lift Fuel
  | S fuel =>
      trk _ <- v_enter (s, first_level, first_name, accum, max_level);
      trk _ <- v_lift (assert "from_stack: accum level" (st_level accum <=? first_level)%N);
      trk _ <- v_lift (assert "from_stack: max level" (first_level <? max_level)%N);
      let next_name := sa_name s in
      trk ' (o, s) <- v_next_archive s;
      trk ' (vec, next_level) <- v_lift (unwrap "stack was unexpectedly empty" o);
      trk leaf_tree <- v_leaf vec None;
      trk ' (shorter, final_level, final_name, small_tree) <-
        match next_level with
        | None => v_ret (sa_new, None, None, leaf_tree)
        | Some lev =>
            if (lev <? first_level)%N
            then v_from_memo (s, lev, next_name, leaf_tree, first_level)
                   (v_tail_from_stack fuel s lev next_name leaf_tree first_level)
            else v_ret (s, Some lev, next_name, leaf_tree)
        end;
      trk new_tree <- v_bin small_tree first_level first_name accum;
      match final_level with
      | None => v_ret (sa_new, None, None, new_tree)
      | Some lev =>
          if (lev <? max_level)%N
          then v_from_memo (shorter, lev, final_name, new_tree, max_level)
                 (v_tail_from_stack fuel shorter lev final_name new_tree max_level)
          else v_ret (shorter, Some lev, final_name, new_tree)
      end
  end.

(** [memo_from(&AtTail)], src/raz.rs:717-778. *)
Definition v_from_at_tail (k : nat) (s : sastack E level) : vm (sraz_tree E M) :=
  let nm := sa_name s in
  trk ' (o, s') <- v_next_archive s;
  match o with
  | None => v_mk_raz_tree None
  | Some (vec, None) => trk t <- v_leaf vec None; v_mk_raz_tree (Some t)
  | Some (vec, Some lev) =>
      trk first_tree <- v_leaf vec None;
      trk ' (s2, l, n, t) <- v_from_memo (s', lev, nm, first_tree, u32_max)
        (v_tail_from_stack k s' lev nm first_tree u32_max);
      trk _ <- v_lift (assert "memo_from: l" (match l with None => true | _ => false end));
      trk _ <- v_lift (assert "memo_from: n" (match n with None => true | _ => false end));
      trk _ <- v_lift (assert "memo_from: s" (sa_is_empty s2));
      v_mk_raz_tree (Some t)
  end.

(** [from_stack] for [AtHead], src/raz.rs:806-838. *)
Fixpoint v_head_from_stack (fuel : nat) (s : sastack E level) (first_level : level)
    (first_name : option name) (accum : stree rdata) (max_level : level) : vm vres :=
  match fuel with
  | O => v_lift Fuel
  | S fuel =>
      trk _ <- v_enter (s, first_level, first_name, accum, max_level);
      trk _ <- v_lift (assert "from_stack: accum level" (st_level accum <? first_level)%N);
      trk _ <- v_lift (assert "from_stack: max level" (first_level <=? max_level)%N);
      let next_name := sa_name s in
      trk ' (o, s) <- v_next_archive s;
      trk ' (vec, next_level) <- v_lift (unwrap "stack was unexpectedly empty" o);
      trk leaf_tree <- v_leaf (rev vec) None;
      trk ' (shorter, final_level, final_name, small_tree) <-
        match next_level with
        | None => v_ret (sa_new, None, None, leaf_tree)
        | Some lev =>
            if (lev <=? first_level)%N
            then v_from_memo (s, lev, next_name, leaf_tree, first_level)
                   (v_head_from_stack fuel s lev next_name leaf_tree first_level)
            else v_ret (s, Some lev, next_name, leaf_tree)
        end;
      trk new_tree <- v_bin accum first_level first_name small_tree;
      match final_level with
      | None => v_ret (sa_new, None, None, new_tree)
      | Some lev =>
          if (lev <=? max_level)%N
          then v_from_memo (shorter, lev, final_name, new_tree, max_level)
                 (v_head_from_stack fuel shorter lev final_name new_tree max_level)
          else v_ret (shorter, Some lev, final_name, new_tree)
      end
  end.

(** [memo_from(&AtHead)], src/raz.rs:792-858. *)
Definition v_from_at_head (k : nat) (s : sastack E level) : vm (sraz_tree E M) :=
  let nm := sa_name s in
  trk ' (o, s') <- v_next_archive s;
  match o with
  | None => v_mk_raz_tree None
  | Some (vec, None) => trk t <- v_leaf (rev vec) None; v_mk_raz_tree (Some t)
  | Some (vec, Some lev) =>
      trk first_tree <- v_leaf (rev vec) None;
      trk ' (s2, l, n, t) <- v_from_memo (s', lev, nm, first_tree, u32_max)
        (v_head_from_stack k s' lev nm first_tree u32_max);
      trk _ <- v_lift (assert "memo_from: l" (match l with None => true | _ => false end));
      trk _ <- v_lift (assert "memo_from: n" (match n with None => true | _ => false end));
      trk _ <- v_lift (assert "memo_from: s" (sa_is_empty s2));
      v_mk_raz_tree (Some t)
  end.
End Raz.
