(** * The folds of src/level_tree.rs and src/raz.rs over the store, with memo entries
      that know what was read.

    MemoModel has the memo table over immutable trees, StoreModel the mutable cells. Here
    the two meet: [force] of a cell is recorded, an entry of the memo table holds the
    arguments, the cells read (with their contents) and the result. A call is answered
    from its entry when the arguments are the recorded ones, compared as handles, and
    every cell read then still has the recorded content; otherwise the body runs and the
    entry is replaced. The closure after the [;;] of [memo!] is not compared.
    Simplification: Adapton can also stop at an inner call whose result did not change;
    entries here count all cells read below them. *)

From Verif Require Import Base LevelTreeModel TreeCursorModel RazMetaModel RazModel MemoModel StoreModel.

(** [PartialEq] of [Tree], src/level_tree.rs:20-31: a reference to a cell is compared by
    its address, a [put] by its content. *)
Section Same.
Context {A : Type} (eqA : forall x y : A, {x = y} + {x <> y}).
Fixpoint stree_same (t u : stree A) : bool :=
  match t, u with
  | TPut lv d l r, TPut lv' d' l' r' =>
      (lv =? lv')%N
      && (if eqA d d' then true else false)
      && match l, l' with
         | None, None => true
         | Some x, Some y => stree_same x y
         | _, _ => false
         end
      && match r, r' with
         | None, None => true
         | Some x, Some y => stree_same x y
         | _, _ => false
         end
  | TCell lv a, TCell lv' a' => (lv =? lv')%N && (if loc_eq_dec a a' then true else false)
  | _, _ => false
  end.
Definition ostree_same (o p : option (stree A)) : bool :=
  match o, p with
  | None, None => true
  | Some x, Some y => stree_same x y
  | _, _ => false
  end.

(** A cell read, and its content ([TreeNode], src/level_tree.rs:27-31). *)
Definition seen : Type := loc * (A * option (stree A) * option (stree A)).
(** The cell still has this content. *)
Definition holds {T} (st : store T A) (s : seen) : bool :=
  let '(a, (d, l, r)) := s in
  match st a with
  | Some (CNode d' l' r') => (if eqA d d' then true else false) && ostree_same l l' && ostree_same r r'
  | _ => false
  end.
End Same.

(** A memo entry, and the table of entries. *)
Record entry (A K R : Type) : Type := Entry { e_arg : K; e_seen : list (@seen A); e_res : R }.
Arguments Entry {A K R} e_arg e_seen e_res.
Arguments e_arg {A K R} _.
Arguments e_seen {A K R} _.
Arguments e_res {A K R} _.
Definition itab (A K R : Type) : Type := loc -> option (entry A K R).
Definition no_entries {A K R} : itab A K R := fun _ => None.
Definition i_set {A K R} (tab : itab A K R) (a : loc) (e : entry A K R) : itab A K R :=
  fun b => if loc_eq_dec b a then Some e else tab b.

(** Computations that read the store and use the table: the result, the cells read, the
    table left, and the handles whose body has run, in order. *)
Definition im (T A K R X : Type) : Type :=
  store T A -> itab A K R -> res (X * list (@seen A) * itab A K R * list (stree A)).
Definition i_ret {T A K R X} (x : X) : im T A K R X := fun _ tab => Ok (x, [], tab, []).
Definition i_bind {T A K R X Y} (m : im T A K R X) (f : X -> im T A K R Y) : im T A K R Y :=
  fun st tab =>
    do ' (x, s1, tab1, lg1) <- m st tab;
    do ' (y, s2, tab2, lg2) <- f x st tab1;
    Ok (y, s1 ++ s2, tab2, lg1 ++ lg2).
Definition i_lift {T A K R X} (m : res X) : im T A K R X := fun _ tab => do x <- m; Ok (x, [], tab, []).
Notation "'inc' x <- m ; k" := (i_bind m (fun x => k))
  (at level 200, x name, m at level 100, k at level 200).
Notation "'inc' ' p <- m ; k" := (i_bind m (fun p => k))
  (at level 200, p pattern, m at level 100, k at level 200).

Section Inc.
Context {T A : Type} (eqA : forall x y : A, {x = y} + {x <> y}) {Nsp : here}.

(** The body of the call with this handle runs: nothing in the code, it is counted. *)
Definition i_enter {K R} (t : stree A) : im T A K R unit := fun _ tab => Ok (tt, [], tab, [t]).

(** [force(&self.link)], src/level_tree.rs:104, 159, 185. *)
Definition i_force {K R} (t : stree A) : im T A K R (A * option (stree A) * option (stree A)) :=
  fun st tab =>
    do x <- unwrap "force: no such node" (tree_look st t);
    Ok (x, match t with TPut _ _ _ _ => [] | TCell _ a => [(a, x)] end, tab, []).

(** [memo!(n =>> body, k ;; ..)]; a plain call without a name. *)
Definition i_memo {K R} (same : K -> K -> bool) (n : name) (k : K) (body : im T A K R R) : im T A K R R :=
  fun st tab =>
    let rerun :=
      do ' (r, s, tab', lg) <- body st tab;
      Ok (r, s, i_set tab' (path, n) (Entry k s r), lg) in
    match tab (path, n) with
    | Some e =>
        if same k (e_arg e) && forallb (holds eqA st) (e_seen e) then Ok (e_res e, e_seen e, tab, [])
        else rerun
    | None => rerun
    end.
Definition i_memo_opt {K R} (same : K -> K -> bool) (n : option name) (k : K) (body : im T A K R R) : im T A K R R :=
  match n with
  | Some n => i_memo same n k body
  | None => body
  end.

(** [fold_up_meta], src/level_tree.rs:101-120; [k] bounds the depth. *)
Fixpoint i_fold_up_meta {R} (k : nat) (f : option R -> A -> level -> option name -> option R -> res R)
    (t : stree A) : im T A (stree A) R R :=
  match k with
  | O => i_lift Fuel
  | S k =>
      inc _ <- i_enter t;
      inc ' (d, l, r) <- i_force t;
      inc rl <- match l with
                | None => i_ret None
                | Some t1 =>
                    inc x <- i_memo_opt (stree_same eqA) (fork_left (st_name t)) t1 (i_fold_up_meta k f t1);
                    i_ret (Some x)
                end;
      inc rr <- match r with
                | None => i_ret None
                | Some t2 =>
                    inc x <- i_memo_opt (stree_same eqA) (fork_right (st_name t)) t2 (i_fold_up_meta k f t2);
                    i_ret (Some x)
                end;
      i_lift (f rl d (st_level t) (st_name t) rr)
  end.

(** [fold_lr_meta], src/level_tree.rs:135-173: [start_name] and [accum] are compared
    arguments as well. *)
Section LR.
Context {R : Type} (eqR : forall x y : R, {x = y} + {x <> y}).
Definition slr_same (k k' : stree A * option name * R) : bool :=
  stree_same eqA (fst (fst k)) (fst (fst k'))
  && (if oname_eq_dec (snd (fst k)) (snd (fst k')) then true else false)
  && (if eqR (snd k) (snd k') then true else false).
Fixpoint i_fold_lr_meta (k : nat) (f : R -> A -> level -> option name -> R)
    (t : stree A) (start_name : option name) (accum : R) : im T A (stree A * option name * R) R R :=
  match k with
  | O => i_lift Fuel
  | S k =>
      inc _ <- i_enter t;
      inc ' (d, l, r) <- i_force t;
      match l, r with
      | None, None => i_ret (f accum d (st_level t) start_name)
      | _, _ =>
          inc a1 <- match l with
                    | None => i_ret accum
                    | Some t1 => i_memo_opt slr_same (fork_left (st_name t)) (t1, start_name, accum)
                                   (i_fold_lr_meta k f t1 start_name accum)
                    end;
          let a2 := f a1 d (st_level t) (st_name t) in
          match r with
          | None => i_ret a2
          | Some t2 => i_memo_opt slr_same (fork_right (st_name t)) (t2, st_name t, a2)
                         (i_fold_lr_meta k f t2 (st_name t) a2)
          end
      end
  end.
End LR.
End Inc.

(** ** The folds of src/raz.rs *)
Section Raz.
Context {E M : Type} {RM : RazMeta E M} (eqD : forall x y : tree_data E M, {x = y} + {x <> y}) {Nsp : here}.
Notation stree := (stree (tree_data E M)).
Notation im := (im (level * list E) (tree_data E M)).

(** [self.tree.map(|tree| ..)], e.g. src/raz.rs:153. *)
Definition i_on_tree {K R} (run : stree -> im K R R) (t : sraz_tree E M) : im K R (option R) :=
  match srt_tree t with
  | None => i_ret None
  | Some tr => inc x <- run tr; i_ret (Some x)
  end.

(** [fold_up], [fold_up_nl], [fold_up_gauged], src/raz.rs:148-230, with their node
    functions from MemoModel. *)
Definition i_rt_fold_up {R} (k : nat) (init : E -> R) (bin : R -> R -> R) :=
  i_on_tree (i_fold_up_meta eqD k (up_node init bin)).
Definition i_rt_fold_up_nl {R} (k : nat) (init : E -> R) (bin : R -> R -> R) (binnl : R -> level -> option name -> R -> R) :=
  i_on_tree (i_fold_up_meta eqD k (up_nl_node init bin binnl)).
Definition i_rt_fold_up_gauged {R} (k : nat) (init : list E -> res R) (bin : R -> level -> option name -> R -> res R) :=
  i_on_tree (i_fold_up_meta eqD k (up_gauged_node init bin)).

(** [fold_lr_meta], [fold_lr], [fold_lr_archive], src/raz.rs:233-285: [init] for no tree. *)
Definition i_rt_lr {R} (eqR : forall x y : R, {x = y} + {x <> y}) (k : nat)
    (f : R -> tree_data E M -> level -> option name -> R) (init : R) (t : sraz_tree E M)
    : im (stree * option name * R) R R :=
  match srt_tree t with
  | None => i_ret init
  | Some tr => i_fold_lr_meta eqD eqR k f tr (Some (NStr "start")) init
  end.
Definition i_rt_fold_lr_meta {R} eqR (k : nat) (bin : R -> E -> R) (meta : R -> level * option name -> R) (init : R) :=
  i_rt_lr eqR k (lr_node bin meta) init.
Definition i_rt_fold_lr {R} eqR (k : nat) (bin : R -> E -> R) (init : R) :=
  i_rt_fold_lr_meta eqR k bin (fun a _ => a) init.
Definition i_rt_fold_lr_archive {R} eqR (k : nat) (bin : R -> E -> R) (finbin : R -> option name -> R)
    (meta : R -> level -> R) (init : R) :=
  i_rt_lr eqR k (lr_archive_node bin finbin meta) init.
End Raz.
