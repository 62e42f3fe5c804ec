(** * The same code over a mutable store of named cells.

    The other model files read [cell(n, v)] and [put(v)] as the value [v]. Adapton's
    incremental engine keeps one cell per namespace and name: [cell(n, v)] overwrites
    the cell [n] of the namespace in force and returns a reference to it, [put(v)]
    returns a reference-counted value, [force] reads; [ns(n, f)] runs [f] one namespace
    deeper. The namespace in force is the implicit argument [Nsp]. This file models src/stack.rs, src/archive_stack.rs, src/level_tree.rs,
    src/tree_cursor.rs and the focus/edit/unfocus part of src/raz.rs again, with the
    store made explicit. Simplifications: no change propagation (cells
    are written and read, not observed), a read of an absent cell or of one of the
    other type panics. Loops take their fuel as an argument [k]. *)

From Verif Require Import Base StackModel AStackModel LevelTreeModel TreeCursorModel RazMetaModel
  RazModel.

(** The namespaces entered, the latest first; the address of a cell. *)
Class here : Type := path : list name.
Definition loc : Type := list name * name.
Definition loc_eq_dec : forall x y : loc, {x = y} + {x <> y}.
Proof.
  intros [p n] [q m]. destruct (list_eq_dec name_eq_dec p q) as [Ep|Np]; [|right; congruence].
  destruct (name_eq_dec n m) as [En|Nn]; [left|right]; congruence.
Defined.

(** [Head], src/stack.rs:27-36: [push_onto] (114-133) makes a named head point to
    the cell of its own name and an unnamed one to a [put]. *)
Inductive shead (T : Type) : Type :=
| HPut (elem : T) (next : option (shead T))
| HCell (c : loc).
Arguments HPut {T} elem next.
Arguments HCell {T} c.

(** [Tree], src/level_tree.rs:21-31; [Tree::new] (36-73) links likewise. *)
Inductive stree (A : Type) : Type :=
| TPut (lev : level) (data : A) (l r : option (stree A))
| TCell (lev : level) (c : loc).
Arguments TPut {A} lev data l r.
Arguments TCell {A} lev c.

(** What a cell holds: a stack [Body] (src/stack.rs:32-36) or a [TreeNode]
    (src/level_tree.rs:27-31). *)
Inductive cell_data (T A : Type) : Type :=
| CBody (elem : T) (next : option (shead T))
| CNode (data : A) (l r : option (stree A)).
Arguments CBody {T A} elem next.
Arguments CNode {T A} data l r.

Definition store (T A : Type) : Type := loc -> option (cell_data T A).

(** Computations over a store. *)
Definition sm (T A X : Type) : Type := store T A -> res (X * store T A).

Definition s_ret {T A X} (x : X) : sm T A X := fun st => Ok (x, st).
Definition s_bind {T A X Y} (m : sm T A X) (f : X -> sm T A Y) : sm T A Y :=
  fun st => match m st with
            | Ok (x, st') => f x st'
            | Panic s => Panic s
            | Fuel => Fuel
            end.
Definition s_lift {T A X} (m : res X) : sm T A X :=
  fun st => match m with Ok x => Ok (x, st) | Panic s => Panic s | Fuel => Fuel end.

Notation "'act' x <- m ; k" := (s_bind m (fun x => k))
  (at level 200, x name, m at level 100, k at level 200).
Notation "'act' ' p <- m ; k" := (s_bind m (fun p => k))
  (at level 200, p pattern, m at level 100, k at level 200).

(** A [while] loop with fuel. *)
Fixpoint s_loop {T A S R} (fuel : nat) (step : S -> sm T A (S + R)) (s : S) : sm T A R :=
  match fuel with
  | O => fun _ => Fuel
  | Datatypes.S n =>
      act x <- step s;
      match x with
      | inl s' => s_loop n step s'
      | inr r => s_ret r
      end
  end.

(** [cell(n, v)]. *)
Definition write {T A} (st : store T A) (a : loc) (c : cell_data T A) : store T A :=
  fun b => if loc_eq_dec b a then Some c else st b.
Definition s_cell {T A} {Nsp : here} (n : name) (c : cell_data T A) : sm T A unit :=
  fun st => Ok (tt, write st (path, n) c).

Section Stack.
Context {T A : Type} {Nsp : here}.

(** [force(&self.main)], src/stack.rs:94, 104, 157. *)
Definition head_look (st : store T A) (h : shead T) : option (T * option (shead T)) :=
  match h with
  | HPut e n => Some (e, n)
  | HCell a => match st a with Some (CBody e nx) => Some (e, nx) | _ => None end
  end.
Definition s_force_head (h : shead T) : sm T A (T * option (shead T)) :=
  fun st => s_lift (unwrap "force: no such body" (head_look st h)) st.

(** [push_onto], src/stack.rs:114-133. *)
Definition s_push_onto (tail : option (shead T)) (nm : option name) (e : T) : sm T A (shead T) :=
  match nm with
  | None => s_ret (HPut e tail)
  | Some n => act _ <- s_cell n (CBody e tail); s_ret (HCell (path, n))
  end.

(** [Stack::push], [peek], [name], [pull], [is_empty], src/stack.rs:46-71. *)
Definition ss_is_empty (s : option (shead T)) : bool :=
  match s with None => true | Some _ => false end.
Definition ss_push (s : option (shead T)) (nm : option name) (e : T) : sm T A (option (shead T)) :=
  act h <- s_push_onto s nm e; s_ret (Some h).
Definition ss_peek (s : option (shead T)) : sm T A (option T) :=
  match s with
  | None => s_ret None
  | Some h => act ' (e, _) <- s_force_head h; s_ret (Some e)
  end.
Definition ss_name (s : option (shead T)) : option name :=
  match s with Some (HCell a) => Some (snd a) | _ => None end.
Definition ss_pull (s : option (shead T)) : sm T A (option (option (shead T))) :=
  match s with
  | None => s_ret None
  | Some h => act ' (_, n) <- s_force_head h; s_ret (Some n)
  end.

(** [Iter::next], src/stack.rs:155-161. *)
Definition ss_iter_next (s : option (shead T)) : sm T A (option T * option (shead T)) :=
  match s with
  | None => s_ret (None, None)
  | Some h => act ' (e, n) <- s_force_head h; s_ret (Some e, n)
  end.
(** [k] calls of [next], the results in order ([take(k)]). *)
Fixpoint ss_take (k : nat) (s : option (shead T)) : sm T A (list T) :=
  match k with
  | O => s_ret []
  | S k =>
      act ' (o, s') <- ss_iter_next s;
      match o with
      | None => s_ret []
      | Some e => act r <- ss_take k s'; s_ret (e :: r)
      end
  end.
End Stack.

Section Tree.
Context {T A : Type} {TU : TreeUpdate A} {Nsp : here}.

(** [level], [name], src/level_tree.rs:76-79: fields of the handle. *)
Definition st_level (t : stree A) : level := match t with TPut lv _ _ _ => lv | TCell lv _ => lv end.
Definition st_name (t : stree A) : option name := match t with TPut _ _ _ _ => None | TCell _ a => Some (snd a) end.

(** [force(&self.link)], src/level_tree.rs:82, 85, 88. *)
Definition tree_look (st : store T A) (t : stree A) : option (A * option (stree A) * option (stree A)) :=
  match t with
  | TPut _ d l r => Some (d, l, r)
  | TCell _ a => match st a with Some (CNode d l r) => Some (d, l, r) | _ => None end
  end.
Definition s_force_tree (t : stree A) : sm T A (A * option (stree A) * option (stree A)) :=
  fun st => s_lift (unwrap "force: no such node" (tree_look st t)) st.

(** [Tree::new], src/level_tree.rs:36-73. *)
Definition s_tree_new (lev : level) (nm : option name) (data : A) (l r : option (stree A))
    : sm T A (option (stree A)) :=
  match nm with
  | Some n => act _ <- s_cell n (CNode data l r); s_ret (Some (TCell lev (path, n)))
  | None => s_ret (Some (TPut lev data l r))
  end.

(** [l_tree], [r_tree], [peek], src/level_tree.rs:82-88; [peek_op],
    src/tree_cursor.rs:101-106. *)
Definition st_left (t : stree A) : sm T A (option (stree A)) :=
  act ' (_, l, _) <- s_force_tree t; s_ret l.
Definition st_right (t : stree A) : sm T A (option (stree A)) :=
  act ' (_, _, r) <- s_force_tree t; s_ret r.
Definition st_peek (t : stree A) : sm T A A :=
  act ' (d, _, _) <- s_force_tree t; s_ret d.
Definition s_peek_op (o : option (stree A)) : sm T A (option A) :=
  match o with
  | None => s_ret None
  | Some t => act d <- st_peek t; s_ret (Some d)
  end.

(** The whole tree under a handle, as the folds of src/level_tree.rs:91-170 read it
    ([k] bounds the depth). *)
Fixpoint st_read (k : nat) (t : stree A) : sm T A (tree A) :=
  match k with
  | O => fun _ => Fuel
  | S k =>
      act ' (d, l, r) <- s_force_tree t;
      act l' <- match l with
                | None => s_ret None
                | Some t1 => act x <- st_read k t1; s_ret (Some x)
                end;
      act r' <- match r with
                | None => s_ret None
                | Some t2 => act x <- st_read k t2; s_ret (Some x)
                end;
      s_ret (Node (st_level t) (st_name t) d l' r')
  end.

(** [Cursor], src/tree_cursor.rs:29-36; the forests hold the end of the [Vec] first. *)
Record scursor : Type := SCursor {
  sc_dirty : bool;
  sc_lf : list (bool * stree A);
  sc_tree : option (stree A);
  sc_rf : list (bool * stree A)
}.
Implicit Types (c : scursor).

(** [From<Tree>] and [new], src/tree_cursor.rs:110-141. *)
Definition sc_from (t : stree A) : scursor := SCursor false [] (Some t) [].
Definition sc_new : scursor := SCursor false [] None [].

(** [left_tree], [right_tree], [peek], [peek_level], [peek_name],
    src/tree_cursor.rs:257-282. *)
Definition sc_left_tree c : sm T A (option (stree A)) :=
  match sc_tree c with None => s_ret None | Some t => st_left t end.
Definition sc_right_tree c : sm T A (option (stree A)) :=
  match sc_tree c with None => s_ret None | Some t => st_right t end.
Definition sc_peek c : sm T A (option A) := s_peek_op (sc_tree c).
Definition sc_peek_level c : option level := option_map st_level (sc_tree c).
Definition sc_peek_name c : option name :=
  match sc_tree c with None => None | Some t => st_name t end.

(** [up_left_level], [up_right_level], src/tree_cursor.rs:287-301. *)
Definition sc_up_left_level c : option level :=
  match sc_lf c with [] => None | (_, t) :: _ => Some (st_level t) end.
Definition sc_up_right_level c : option level :=
  match sc_rf c with [] => None | (_, t) :: _ => Some (st_level t) end.

(** [split], src/tree_cursor.rs:146-166. *)
Definition sc_split c : sm T A (scursor * option (stree A) * scursor) :=
  act l <- sc_left_tree c;
  act r <- sc_right_tree c;
  s_ret (SCursor true (sc_lf c) l [], sc_tree c, SCursor true [] r (sc_rf c)).

(** [down_left_force], src/tree_cursor.rs:305-320. *)
Definition sc_down_left_force (f : force_kind) c : sm T A (bool * scursor) :=
  match sc_tree c with
  | None => s_ret (false, c)
  | Some t =>
      act lt <- st_left t;
      s_ret match lt, f with
            | None, ForceNo => (false, c)
            | lt, ForceDiscard => (true, SCursor true (sc_lf c) lt (sc_rf c))
            | lt, _ => (true, SCursor false (sc_lf c) lt ((sc_dirty c, t) :: sc_rf c))
            end
  end.

(** [down_right_force], src/tree_cursor.rs:326-341. *)
Definition sc_down_right_force (f : force_kind) c : sm T A (bool * scursor) :=
  match sc_tree c with
  | None => s_ret (false, c)
  | Some t =>
      act rt <- st_right t;
      s_ret match rt, f with
            | None, ForceNo => (false, c)
            | rt, ForceDiscard => (true, SCursor true (sc_lf c) rt (sc_rf c))
            | rt, _ => (true, SCursor false ((sc_dirty c, t) :: sc_lf c) rt (sc_rf c))
            end
  end.

(** The choice of direction, src/tree_cursor.rs:351-356 and 388-393. *)
Definition sc_up_to_left c : option bool :=
  match sc_lf c, sc_rf c with
  | [], [] => None
  | _ :: _, [] => Some true
  | (_, lt) :: _, (_, rt) :: _ => Some (st_level lt <? st_level rt)%N
  | _, _ => Some false
  end.

(** [up], src/tree_cursor.rs:350-383. *)
Definition sc_up c : sm T A (up_result * scursor) :=
  match sc_up_to_left c with
  | None => s_ret (UpFail, c)
  | Some true =>
      match sc_lf c with
      | (d, ut) :: lf =>
          if sc_dirty c then
            act l_branch <- st_left ut;
            act pl <- s_peek_op l_branch;
            act old <- st_peek ut;
            act pr <- s_peek_op (sc_tree c);
            act data <- s_lift (rebuild pl old (st_level ut) (st_name ut) pr);
            act t <- s_tree_new (st_level ut) (st_name ut) data l_branch (sc_tree c);
            s_ret (UpLeft, SCursor true lf t (sc_rf c))
          else s_ret (UpLeft, SCursor d lf (Some ut) (sc_rf c))
      | [] => s_lift (Panic "up: empty left forest item")
      end
  | Some false =>
      match sc_rf c with
      | (d, ut) :: rf =>
          if sc_dirty c then
            act r_branch <- st_right ut;
            act pl <- s_peek_op (sc_tree c);
            act old <- st_peek ut;
            act pr <- s_peek_op r_branch;
            act data <- s_lift (rebuild pl old (st_level ut) (st_name ut) pr);
            act t <- s_tree_new (st_level ut) (st_name ut) data (sc_tree c) r_branch;
            s_ret (UpRight, SCursor true (sc_lf c) t rf)
          else s_ret (UpRight, SCursor d (sc_lf c) (Some ut) rf)
      | [] => s_lift (Panic "up: empty right forest item")
      end
  end.

(** [up_discard], src/tree_cursor.rs:387-406. *)
Definition sc_up_discard c : sm T A (up_result * scursor) :=
  match sc_up_to_left c with
  | None => s_ret (UpFail, c)
  | Some true =>
      match sc_lf c with
      | (d, ut) :: lf => s_ret (UpLeft, SCursor d lf (Some ut) (sc_rf c))
      | [] => s_lift (Panic "up: empty left forest item")
      end
  | Some false =>
      match sc_rf c with
      | (d, ut) :: rf => s_ret (UpRight, SCursor d (sc_lf c) (Some ut) rf)
      | [] => s_lift (Panic "up: empty right forest item")
      end
  end.

(** [assert!(c.up() != Fail)], and the loops of [join], src/tree_cursor.rs:215-233,
    and of raz.rs. *)
Definition sc_up_or_panic c : sm T A scursor :=
  act ' (u, c') <- sc_up c;
  act _ <- s_lift (assert "join: up failed" (negb (up_failed u)));
  s_ret c'.
Definition sc_down_left_all (k : nat) c : sm T A scursor :=
  s_loop k (fun c => act ' (b, c') <- sc_down_left_force ForceNo c;
                     s_ret (if b then inl c' else inr c')) c.
Definition sc_down_right_all (k : nat) c : sm T A scursor :=
  s_loop k (fun c => act ' (b, c') <- sc_down_right_force ForceNo c;
                     s_ret (if b then inl c' else inr c')) c.
Definition sc_up_all (k : nat) c : sm T A scursor :=
  s_loop k (fun c => act ' (u, c') <- sc_up c;
                     s_ret (if up_failed u then inr c' else inl c')) c.
Definition sc_clear_right (k : nat) c : sm T A scursor :=
  s_loop k (fun c => match sc_rf c with
                     | [] => s_ret (inr c)
                     | _ => act c' <- sc_up_or_panic c; s_ret (inl c')
                     end) c.
Definition sc_clear_left (k : nat) c : sm T A scursor :=
  s_loop k (fun c => match sc_lf c with
                     | [] => s_ret (inr c)
                     | _ => act c' <- sc_up_or_panic c; s_ret (inl c')
                     end) c.
Definition sc_join_left_up (k : nat) (lev : level) c : sm T A scursor :=
  s_loop k (fun c => match sc_up_left_level c with
                     | None => s_ret (inr c)
                     | Some h => if (lev <=? h)%N then s_ret (inr c)
                                 else act c' <- sc_up_or_panic c; s_ret (inl c')
                     end) c.
Definition sc_join_left_down (k : nat) (lev : level) c : sm T A scursor :=
  s_loop k (fun c => match sc_peek_level c with
                     | None => s_ret (inr c)
                     | Some h => if (h <? lev)%N then s_ret (inr c)
                                 else act ' (b, c') <- sc_down_right_force ForceYes c;
                                      act _ <- s_lift (assert "join: down_right" b);
                                      s_ret (inl c')
                     end) c.
Definition sc_join_right_up (k : nat) (lev : level) c : sm T A scursor :=
  s_loop k (fun c => match sc_up_right_level c with
                     | None => s_ret (inr c)
                     | Some h => if (lev <? h)%N then s_ret (inr c)
                                 else act c' <- sc_up_or_panic c; s_ret (inl c')
                     end) c.
Definition sc_join_right_down (k : nat) (lev : level) c : sm T A scursor :=
  s_loop k (fun c => match sc_peek_level c with
                     | None => s_ret (inr c)
                     | Some h => if (h <=? lev)%N then s_ret (inr c)
                                 else act ' (b, c') <- sc_down_left_force ForceYes c;
                                      act _ <- s_lift (assert "join: down_left" b);
                                      s_ret (inl c')
                     end) c.

(** [join], src/tree_cursor.rs:213-249. *)
Definition sc_join (k : nat) (lc : scursor) (lev : level) (nm : option name) (data : A)
    (rc : scursor) : sm T A scursor :=
  act lc <- sc_clear_right k lc;
  act rc <- sc_clear_left k rc;
  act lc <- sc_join_left_up k lev lc;
  act lc <- sc_join_left_down k lev lc;
  act rc <- sc_join_right_up k lev rc;
  act rc <- sc_join_right_down k lev rc;
  act pl <- s_peek_op (sc_tree lc);
  act pr <- s_peek_op (sc_tree rc);
  act data' <- s_lift (rebuild pl data lev nm pr);
  act t <- s_tree_new lev nm data' (sc_tree lc) (sc_tree rc);
  act _ <- s_lift (assert "join: tree.is_some()" (match t with Some _ => true | None => false end));
  s_ret (SCursor true (sc_lf lc) t (sc_rf rc)).
End Tree.
Arguments scursor A : clear implicits.
Arguments SCursor {A} sc_dirty sc_lf sc_tree sc_rf.

Section AStack.
Context {E M A : Type} {Nsp : here}.

(** [AStack], src/archive_stack.rs:34-40. *)
Record sastack : Type := SAStack {
  sa_current : list E;
  sa_archived : option (shead (M * list E))
}.
Implicit Types (s : sastack).
Notation sm' := (sm (M * list E) A).

(** [new], [is_empty], [name], [push], [active_len], [extend], [extend_rev],
    src/archive_stack.rs:62-116. *)
Definition sa_new : sastack := SAStack [] None.
Definition sa_is_empty s : bool :=
  match sa_current s with [] => true | _ => false end && ss_is_empty (sa_archived s).
Definition sa_name s : option name := ss_name (sa_archived s).
Definition sa_push s (e : E) : sastack := SAStack (sa_current s ++ [e]) (sa_archived s).
Definition sa_active_len s : nat := length (sa_current s).
Definition sa_extend s (extra : list E) : sastack := SAStack (sa_current s ++ extra) (sa_archived s).
Definition sa_extend_rev s (extra : list E) : sastack :=
  SAStack (rev (sa_current s ++ extra)) (sa_archived s).

(** [retrieve], src/archive_stack.rs:170-177. *)
Definition sa_retrieve s : sm' (option M * sastack) :=
  match sa_current s with
  | [] =>
      act o <- ss_peek (sa_archived s);
      act ' (meta, v) <- s_lift (unwrap "retrieve: peek" o);
      act o <- ss_pull (sa_archived s);
      act rest <- s_lift (unwrap "retrieve: pull" o);
      s_ret (Some meta, SAStack v rest)
  | _ => s_ret (None, s)
  end.

(** [pop], src/archive_stack.rs:90-94. *)
Definition sa_pop s : sm' (option E * sastack) :=
  if sa_is_empty s then s_ret (None, s)
  else
    act ' (_, s1) <- sa_retrieve s;
    let (e, v) := vec_pop (sa_current s1) in
    s_ret (e, SAStack v (sa_archived s1)).

(** [pop_meta], src/archive_stack.rs:99-103. *)
Definition sa_pop_meta s : sm' (option (E * option M) * sastack) :=
  if sa_is_empty s then s_ret (None, s)
  else
    act ' (meta, s1) <- sa_retrieve s;
    let (e, v) := vec_pop (sa_current s1) in
    s_ret (option_map (fun e => (e, meta)) e, SAStack v (sa_archived s1)).

(** [next_archive], src/archive_stack.rs:120-132. *)
Definition sa_next_archive s : sm' (option (list E * option M) * sastack) :=
  if sa_is_empty s then s_ret (None, s)
  else if ss_is_empty (sa_archived s) then
    s_ret (Some (sa_current s, None), SAStack [] None)
  else
    act o <- ss_peek (sa_archived s);
    act ' (old_meta, vec) <- s_lift (unwrap "missing data" o);
    act o <- ss_pull (sa_archived s);
    act rest <- s_lift (unwrap "next_archive: pull" o);
    s_ret (Some (sa_current s, Some old_meta), SAStack vec rest).

(** [peek], src/archive_stack.rs:144-150. *)
Definition sa_peek s : sm' (option E) :=
  if sa_is_empty s then s_ret None
  else match sa_current s with
  | [] =>
      act o <- ss_peek (sa_archived s);
      act ' (_, v) <- s_lift (unwrap "peek: archived" o);
      act e <- s_lift (unwrap "peek: last" (vec_last v));
      s_ret (Some e)
  | _ =>
      act e <- s_lift (unwrap "peek: last" (vec_last (sa_current s)));
      s_ret (Some e)
  end.

(** [archive], src/archive_stack.rs:156-166. *)
Definition sa_archive s (nm : option name) (meta : M) : sm' (bool * sastack) :=
  match sa_current s with
  | [] => s_ret (false, s)
  | _ =>
      act a <- ss_push (sa_archived s) nm (meta, sa_current s);
      s_ret (true, SAStack [] a)
  end.
End AStack.
Arguments sastack E M : clear implicits.
Arguments SAStack {E M} sa_current sa_archived.

Section Raz.
Context {E M : Type} {RM : RazMeta E M} {Nsp : here}.
Notation rdata := (tree_data E M).
Notation rm := (sm (level * list E) rdata).

(** [Raz], src/raz.rs:45-51. *)
Record sraz_z : Type := SRaz {
  sz_lf : scursor rdata;
  sz_ls : sastack E level;
  sz_rs : sastack E level;
  sz_rf : scursor rdata
}.

(** The empty Raz, src/raz.rs:324-331, 382-389 and 432-439. *)
Definition s_raz_new : sraz_z := SRaz sc_new sa_new sa_new sc_new.

(** [treetop_meta], src/raz.rs:93-105. *)
Definition s_treetop_meta (t : option (stree rdata)) : rm M :=
  match t with
  | None => s_ret (from_none 0%N None)
  | Some t =>
      act d <- st_peek t;
      match d with
      | Dummy => s_lift (Panic "treetop_meta: unreachable")
      | Leaf v => s_ret (from_vec v 0%N None)
      | Branch l r => s_ret (from_meta l r 0%N None)
      end
  end.

(** [RazTree], src/raz.rs:87-91, and the form its constructors use. *)
Record sraz_tree : Type := SRazTree { srt_meta : M; srt_tree : option (stree rdata) }.
Definition s_mk_raz_tree (t : option (stree rdata)) : rm sraz_tree :=
  act m <- s_treetop_meta t; s_ret (SRazTree m t).

(** [empty], src/raz.rs:115. *)
Definition s_rt_empty : rm sraz_tree := s_mk_raz_tree None.

(** [leaf] and [bin], src/raz.rs:687-708; [join], src/raz.rs:121-131; [from_vec],
    src/raz.rs:137-141. *)
Definition s_leaf (v : list E) (n : option name) : rm (stree rdata) :=
  act o <- s_tree_new 0%N n (Leaf v) None None;
  s_lift (unwrap "leaf: unwrap" o).
Definition s_bin (t1 : stree rdata) (l : level) (n : option name) (t2 : stree rdata) : rm (stree rdata) :=
  act d1 <- st_peek t1;
  act d2 <- st_peek t2;
  act td <- s_lift (td_rebuild (Some d1) Dummy l n (Some d2));
  act o <- s_tree_new l n td (Some t1) (Some t2);
  s_lift (unwrap "bin: unwrap" o).
Definition s_rt_join (lt : sraz_tree) (lev : level) (nm : option name) (rt : sraz_tree)
    : rm (option sraz_tree) :=
  match srt_tree lt, srt_tree rt with
  | Some l, Some r =>
      act t <- s_bin l lev nm r;
      act rt <- s_mk_raz_tree (Some t);
      s_ret (Some rt)
  | _, _ => s_ret None
  end.
Definition s_rt_from_vec (v : list E) : rm (option sraz_tree) :=
  match v with
  | [] => s_ret None
  | _ =>
      act t <- s_leaf v None;
      act rt <- s_mk_raz_tree (Some t);
      s_ret (Some rt)
  end.

(** [focus], src/raz.rs:321-377: the search loop (335-352) and the rest. *)
Definition s_focus_step (k : nat) (s : scursor rdata * Index)
    : rm ((scursor rdata * Index) + option (scursor rdata * Index)) :=
  let (c, index) := s in
  act o <- sc_peek c;
  act d <- s_lift (unwrap "focus: peek" o);
  match d with
  | Branch l r =>
      act nav <- s_lift (navigate l r index);
      match nav with
      | NavLeft i =>
          act ' (b, c') <- sc_down_left_force ForceNo c;
          act _ <- s_lift (assert "focus: down_left" b); s_ret (inl (c', i))
      | NavRight i =>
          act ' (b, c') <- sc_down_right_force ForceNo c;
          act _ <- s_lift (assert "focus: down_right" b); s_ret (inl (c', i))
      | NavHere =>
          act ' (b, c') <- sc_down_left_force ForceNo c;
          act _ <- s_lift (assert "focus: down_left" b);
          act c'' <- sc_down_right_all k c';
          s_ret (inl (c'', idx_last))
      | NavNowhere => s_ret (inr None)
      end
  | _ => s_ret (inr (Some (c, index)))
  end.
Definition s_focus (k : nat) (t : sraz_tree) (index : Index) : rm (option sraz_z) :=
  match srt_tree t with
  | None => s_ret (Some s_raz_new)
  | Some tr =>
      act found <- s_loop k (s_focus_step k) (sc_from tr, index);
      match found with
      | None => s_ret None
      | Some (c, index) =>
          act ' (l_cursor, t, r_cursor) <- sc_split c;
          match t with
          | Some t =>
              act d <- st_peek t;
              match d with
              | Leaf v =>
                  act ' (l_slice, r_slice) <- s_lift (split_vec v index);
                  s_ret (Some (SRaz l_cursor (sa_extend sa_new l_slice)
                                 (sa_extend_rev sa_new r_slice) r_cursor))
              | _ => s_lift (Panic "focus: unreachable")
              end
          | None => s_lift (Panic "focus: unreachable")
          end
      end
  end.

(** [focus_left], src/raz.rs:380-416. *)
Definition s_focus_left (k : nat) (t : sraz_tree) : rm sraz_z :=
  match srt_tree t with
  | None => s_ret s_raz_new
  | Some tr =>
      act c <- sc_down_left_all k (sc_from tr);
      act ' (l_cursor, t, r_cursor) <- sc_split c;
      match t with
      | Some t =>
          act d <- st_peek t;
          match d with
          | Leaf v => s_ret (SRaz l_cursor sa_new (sa_extend_rev sa_new v) r_cursor)
          | _ => s_lift (Panic "focus_left: unreachable")
          end
      | None => s_lift (Panic "focus_left: unreachable")
      end
  end.

(** [push_left], [push_right], src/raz.rs:559-569. *)
Definition s_push_left (z : sraz_z) (e : E) : nat * sraz_z :=
  let s := sa_push (sz_ls z) e in (sa_active_len s, SRaz (sz_lf z) s (sz_rs z) (sz_rf z)).
Definition s_push_right (z : sraz_z) (e : E) : nat * sraz_z :=
  let s := sa_push (sz_rs z) e in (sa_active_len s, SRaz (sz_lf z) (sz_ls z) s (sz_rf z)).

(** [peek_left], [peek_right], src/raz.rs:571-597: the cursor is a clone, but the
    cells it writes on the way up are shared. *)
Definition s_peek_left (k : nat) (z : sraz_z) : rm (option E) :=
  if sa_is_empty (sz_ls z) then
    act ' (u, c) <- sc_up (sz_lf z);
    if up_failed u then s_ret None
    else
      act ' (_, c) <- sc_down_left_force ForceNo c;
      act c <- sc_down_right_all k c;
      act o <- sc_peek c;
      match o with
      | Some (Leaf v) => s_ret (vec_last v)
      | _ => s_lift (Panic "peek_left: no left tree leaf")
      end
  else sa_peek (sz_ls z).
Definition s_peek_right (k : nat) (z : sraz_z) : rm (option E) :=
  if sa_is_empty (sz_rs z) then
    act ' (u, c) <- sc_up (sz_rf z);
    if up_failed u then s_ret None
    else
      act ' (_, c) <- sc_down_right_force ForceNo c;
      act c <- sc_down_left_all k c;
      act o <- sc_peek c;
      match o with
      | Some (Leaf v) => s_ret (hd_error v)
      | _ => s_lift (Panic "peek_right: no right tree leaf")
      end
  else sa_peek (sz_rs z).

(** [archive_left], [archive_right], src/raz.rs:599-605. *)
Definition s_archive_left (z : sraz_z) (lev : level) (nm : option name) : rm sraz_z :=
  act ' (_, s) <- sa_archive (sz_ls z) nm lev;
  s_ret (SRaz (sz_lf z) s (sz_rs z) (sz_rf z)).
Definition s_archive_right (z : sraz_z) (lev : level) (nm : option name) : rm sraz_z :=
  act ' (_, s) <- sa_archive (sz_rs z) nm lev;
  s_ret (SRaz (sz_lf z) (sz_ls z) s (sz_rf z)).

(** [pop_left], [pop_right], src/raz.rs:611-640. *)
Definition s_pop_left (k : nat) (z : sraz_z) : rm (option E * sraz_z) :=
  if sa_is_empty (sz_ls z) then
    act ' (u, c) <- sc_up (sz_lf z);
    if up_failed u then s_ret (None, SRaz c (sz_ls z) (sz_rs z) (sz_rf z))
    else
      act ' (_, c) <- sc_down_left_force ForceDiscard c;
      act c <- sc_down_right_all k c;
      act o <- sc_peek c;
      match o with
      | Some (Leaf v) =>
          act ' (e, s) <- sa_pop (sa_extend (sz_ls z) v);
          s_ret (e, SRaz c s (sz_rs z) (sz_rf z))
      | _ => s_lift (Panic "pop_left: no left tree leaf")
      end
  else
    act ' (e, s) <- sa_pop (sz_ls z);
    s_ret (e, SRaz (sz_lf z) s (sz_rs z) (sz_rf z)).
Definition s_pop_right (k : nat) (z : sraz_z) : rm (option E * sraz_z) :=
  if sa_is_empty (sz_rs z) then
    act ' (u, c) <- sc_up (sz_rf z);
    if up_failed u then s_ret (None, SRaz (sz_lf z) (sz_ls z) (sz_rs z) c)
    else
      act ' (_, c) <- sc_down_right_force ForceDiscard c;
      act c <- sc_down_left_all k c;
      act o <- sc_peek c;
      match o with
      | Some (Leaf v) =>
          act ' (e, s) <- sa_pop (sa_extend_rev (sz_rs z) v);
          s_ret (e, SRaz (sz_lf z) (sz_ls z) s c)
      | _ => s_lift (Panic "pop_right: no right tree leaf")
      end
  else
    act ' (e, s) <- sa_pop (sz_rs z);
    s_ret (e, SRaz (sz_lf z) (sz_ls z) s (sz_rf z)).

(** [unfocus], src/raz.rs:443-530, in the same pieces as the pure model. *)
Definition s_unfocus_side (s : sastack E level)
    : rm (option name * option level * option (list E) * sastack E level) :=
  let nm := tree_name (sa_name s) in
  act ' (o, s') <- sa_next_archive s;
  s_ret match o with
        | Some (vec, lev) => (nm, lev, match vec with [] => None | _ => Some vec end, s')
        | None => (nm, None, None, s')
        end.
Definition s_unfocus_left_loop (k : nat) (s : sastack E level) (lev : option level)
    (nm : option name) (c : scursor rdata) : rm (scursor rdata) :=
  s_loop k
    (fun '(s, lev, nm, next_nm, c) =>
       act ' (o, s') <- sa_next_archive s;
       match o with
       | None => s_ret (inr c)
       | Some (l_vec, next_lev) =>
           act o <- s_tree_new 0%N None (Leaf l_vec) None None;
           act lt <- s_lift (unwrap "unfocus: leaf" o);
           act lv <- s_lift (unwrap "unfocus: l_lev" lev);
           act c' <- sc_join k (sc_from lt) lv nm Dummy c;
           s_ret (inl (s', next_lev, next_nm, tree_name (sa_name s'), c'))
       end)
    (s, lev, nm, tree_name (sa_name s), c).
Definition s_unfocus_right_loop (k : nat) (s : sastack E level) (lev : option level)
    (nm : option name) (c : scursor rdata) : rm (scursor rdata) :=
  s_loop k
    (fun '(s, lev, nm, next_nm, c) =>
       act ' (o, s') <- sa_next_archive s;
       match o with
       | None => s_ret (inr c)
       | Some (r_vec, next_lev) =>
           act o <- s_tree_new 0%N None (Leaf (rev r_vec)) None None;
           act rt <- s_lift (unwrap "unfocus: leaf" o);
           act lv <- s_lift (unwrap "unfocus: r_lev" lev);
           act c' <- sc_join k c lv nm Dummy (sc_from rt);
           s_ret (inl (s', next_lev, next_nm, tree_name (sa_name s'), c'))
       end)
    (s, lev, nm, tree_name (sa_name s), c).

(** Step 1 of [unfocus], src/raz.rs:460-478. *)
Definition s_unfocus_vec (lnm : option name) (llev : option level) (lvec : option (list E))
    (ls : sastack E level) (rnm : option name) (rlev : option level) (rvec : option (list E))
    (rs : sastack E level)
    : rm (option (list E) * option name * option level * sastack E level *
          option name * option level * sastack E level) :=
  match sa_is_empty ls, lvec, rvec, sa_is_empty rs with
  | _, Some v, None, _ => s_ret (Some v, lnm, llev, ls, rnm, rlev, rs)
  | _, None, Some v, _ => s_ret (Some (rev v), lnm, llev, ls, rnm, rlev, rs)
  | _, Some lv, Some rv, _ => s_ret (Some (lv ++ rev rv), lnm, llev, ls, rnm, rlev, rs)
  | false, None, None, _ =>
      let lnm := tree_name (sa_name ls) in
      act ' (o, ls) <- sa_next_archive ls;
      act ' (v, lev) <- s_lift (unwrap "unfocus: next_archive" o);
      s_ret (Some v, lnm, lev, ls, rnm, rlev, rs)
  | true, None, None, false =>
      let rnm := tree_name (sa_name rs) in
      act ' (o, rs) <- sa_next_archive rs;
      act ' (v, lev) <- s_lift (unwrap "unfocus: next_archive" o);
      s_ret (Some (rev v), lnm, llev, ls, rnm, lev, rs)
  | true, None, None, true => s_ret (None, lnm, llev, ls, rnm, rlev, rs)
  end.

Definition s_unfocus (k : nat) (z : sraz_z) : rm sraz_tree :=
  act ' (lnm, llev, lvec, ls) <- s_unfocus_side (sz_ls z);
  act ' (rnm, rlev, rvec, rs) <- s_unfocus_side (sz_rs z);
  act ' (vec, lnm, llev, ls, rnm, rlev, rs) <- s_unfocus_vec lnm llev lvec ls rnm rlev rvec rs;
  act ' (tr, lf, rf) <-
    match vec with
    | Some v =>
        act o <- s_tree_new 0%N None (Leaf v) None None;
        act t0 <- s_lift (unwrap "unfocus: leaf" o);
        act c <- s_unfocus_left_loop k ls llev lnm (sc_from t0);
        act c <- s_unfocus_right_loop k rs rlev rnm c;
        act c <- sc_up_all k c;
        act t <- s_lift (unwrap "unfocus: at_tree" (sc_tree c));
        s_ret (Some t, sz_lf z, sz_rf z)
    | None =>
        act ' (u, lf) <- sc_up (sz_lf z);
        if up_failed u then
          act ' (u, rf) <- sc_up (sz_rf z);
          if up_failed u then s_ret (None, lf, rf)
          else
            act o <- sc_right_tree rf;
            act t <- s_lift (unwrap "unfocus: right_tree" o);
            s_ret (Some t, lf, rf)
        else
          act o <- sc_left_tree lf;
          act t <- s_lift (unwrap "unfocus: left_tree" o);
          s_ret (Some t, lf, sz_rf z)
    end;
  match tr with
  | None => s_mk_raz_tree None
  | Some tr =>
      let jc := sc_from tr in
      act ' (u, lf) <- sc_up lf;
      act jc <-
        (if up_failed u then s_ret jc
         else
           act lev <- s_lift (unwrap "unfocus: peek_level" (sc_peek_level lf));
           let nm := sc_peek_name lf in
           act ' (_, lf) <- sc_down_left_force ForceDiscard lf;
           sc_join k lf lev nm Dummy jc);
      act ' (u, rf) <- sc_up rf;
      act jc <-
        (if up_failed u then s_ret jc
         else
           act lev <- s_lift (unwrap "unfocus: peek_level" (sc_peek_level rf));
           let nm := sc_peek_name rf in
           act ' (_, rf) <- sc_down_right_force ForceDiscard rf;
           sc_join k jc lev nm Dummy rf);
      act jc <- sc_up_all k jc;
      s_mk_raz_tree (sc_tree jc)
  end.
End Raz.
Arguments sraz_z E M : clear implicits.
Arguments sraz_tree E M : clear implicits.
Arguments SRaz {E M} sz_lf sz_ls sz_rs sz_rf.
Arguments SRazTree {E M} srt_meta srt_tree.
