(** * The computation of eval/examples/unique_elms.rs over stores of named cells, with memo
      entries that know what was read and what was written.

    As IncMapModel, for a left-to-right fold whose accumulator is a skiplist: it reads cells
    of a tree and cells of the skiplist, and writes cells of the skiplist. An entry of the
    memo table holds the arguments of the call, the cells read and written (each with its
    content) and the result. A call is answered from its entry when the arguments are the
    recorded ones, compared as handles, and every cell read or written then has the recorded
    content now; otherwise the body runs and the entry is replaced. Cells of the tree and of
    the skiplist are kept in two stores. Simplifications: those of IncModel and
    SkipStoreModel. *)

From Verif Require Import Base LevelTreeModel TreeCursorModel RazMetaModel RazModel MemoModel StoreModel IncModel SkiplistModel SkipStoreModel.

Section Engine.
Context {T A K V : Type} (eqA : forall x y : A, {x = y} + {x <> y}) (eqK : forall x y : K, {x = y} + {x <> y})
  (eqV : forall x y : V, {x = y} + {x <> y}).
Notation cells := (cells K V).
Notation spath := (spath K V).

(** [PartialEq] of [Path], src/skiplist.rs:27: other paths are compared by address. *)
Definition eq_spath (x y : spath) : {x = y} + {x <> y}.
Proof.
  decide equality; [apply (list_eq_dec (fun a b : option loc => ltac:(decide equality; apply loc_eq_dec)))| |apply N.eq_dec].
  apply list_eq_dec. decide equality. decide equality.
Defined.
(** [PartialEq] of [Skiplist], src/skiplist.rs:35. *)
Definition eq_sskiplist (x y : sskiplist) : {x = y} + {x <> y}.
Proof.
  decide equality; [decide equality; apply loc_eq_dec|apply N.eq_dec|apply name_eq_dec|apply Nat.eq_dec].
Defined.

(** A cell read or written, and its content: of the tree, of the skiplist. *)
Inductive hseen : Type :=
| HNode (s : @seen A)
| HPath (a : loc) (p : spath).
Definition hholds (st : store T A) (cs : cells) (s : hseen) : bool :=
  match s with
  | HNode s => holds eqA st s
  | HPath a p => match cs a with Some p' => if eq_spath p p' then true else false | None => false end
  end.

(** A memo entry, and the table of entries. *)
Record hentry (X R : Type) : Type := HEntry { he_arg : X; he_seen : list hseen; he_res : R }.
Arguments HEntry {X R} he_arg he_seen he_res.
Arguments he_arg {X R} _.
Arguments he_seen {X R} _.
Arguments he_res {X R} _.
Definition htab (X R : Type) : Type := loc -> option (hentry X R).
Definition no_hentries {X R} : htab X R := fun _ => None.
Definition h_set {X R} (tab : htab X R) (a : loc) (e : hentry X R) : htab X R :=
  fun b => if loc_eq_dec b a then Some e else tab b.

(** Computations: the result, the cells of the skiplist left, the cells read and written,
    the table left, and the handles whose body has run. *)
Definition hm (X R Y : Type) : Type :=
  store T A -> cells -> htab X R -> res (Y * cells * list hseen * htab X R * list (stree A)).
Definition h_ret {X R Y} (y : Y) : hm X R Y := fun _ cs tab => Ok (y, cs, [], tab, []).
Definition h_bind {X R Y Z} (m : hm X R Y) (f : Y -> hm X R Z) : hm X R Z :=
  fun st cs tab =>
    do ' (y, cs1, s1, tab1, lg1) <- m st cs tab;
    do ' (z, cs2, s2, tab2, lg2) <- f y st cs1 tab1;
    Ok (z, cs2, s1 ++ s2, tab2, lg1 ++ lg2).
Definition h_lift {X R Y} (m : res Y) : hm X R Y := fun _ cs tab => do y <- m; Ok (y, cs, [], tab, []).

(** The body of the call with this handle runs: nothing in the code, it is counted. *)
Definition h_enter {X R} (t : stree A) : hm X R unit := fun _ cs tab => Ok (tt, cs, [], tab, [t]).

(** [force(&self.link)], src/level_tree.rs:159. *)
Definition h_force {X R} (t : stree A) : hm X R (A * option (stree A) * option (stree A)) :=
  fun st cs tab =>
    do x <- unwrap "force: no such node" (tree_look st t);
    Ok (x, cs, match t with TPut _ _ _ _ => [] | TCell _ a => [HNode (a, x)] end, tab, []).

(** [force_map], src/skiplist.rs:165, and [cell], src/skiplist.rs:269-272. *)
Definition h_get_cell {X R} (a : loc) : hm X R spath :=
  fun _ cs tab => do p <- unwrap "force: no such cell" (cs a); Ok (p, cs, [HPath a p], tab, []).
Definition h_put_cell {X R} (a : loc) (p : spath) : hm X R unit :=
  fun _ cs tab => Ok (tt, put_cell cs a p, [HPath a p], tab, []).

(** [memo!(n =>> body, k ;; ..)]; a plain call without a name. *)
Context {Nsp : here}.
Definition h_memo {X R} (same : X -> X -> bool) (n : name) (k : X) (body : hm X R R) : hm X R R :=
  fun st cs tab =>
    let rerun :=
      do ' (r, cs', s, tab', lg) <- body st cs tab;
      Ok (r, cs', s, h_set tab' (StoreModel.path, n) (HEntry k s r), lg) in
    match tab (StoreModel.path, n) with
    | Some e =>
        if same k (he_arg e) && forallb (hholds st cs) (he_seen e) then Ok (he_res e, cs, he_seen e, tab, [])
        else rerun
    | None => rerun
    end.
Definition h_memo_opt {X R} (same : X -> X -> bool) (n : option name) (k : X) (body : hm X R R) : hm X R R :=
  match n with
  | Some n => h_memo same n k body
  | None => body
  end.
End Engine.
Arguments HEntry {A K V X R} he_arg he_seen he_res.
Arguments he_arg {A K V X R} _.
Arguments he_seen {A K V X R} _.
Arguments he_res {A K V X R} _.
Notation "'hop' x <- m ; k" := (h_bind m (fun x => k))
  (at level 200, x name, m at level 100, k at level 200).
Notation "'hop' ' p <- m ; k" := (h_bind m (fun p => k))
  (at level 200, p pattern, m at level 100, k at level 200).

Section Skip.
Context {T A K V X R : Type} (keqb : K -> K -> bool) (my_hash : K -> N) (debug : bool).
Notation hm := (@hm T A K V X R).

(** build_path_rec, src/skiplist.rs:157-191. *)
Fixpoint h_build_path_rec (fuel : nat) (len : nat) (key : N) (cur : loc)
    (cpaths : list (option loc)) : hm (option (list (K * option V)) * list (option loc)) :=
  match fuel with
  | O => h_lift Fuel
  | S fuel' =>
      hop p <- h_get_cell cur;
      hop r <- h_lift (s_build_path_step debug cur p len key (length cpaths));
      let cpaths' := cpaths ++ so_paths r in
      match so_kvs r with
      | Some kvs =>
          hop _ <- h_lift (assert "assert_eq cursor.paths.len path_len" (length cpaths' =? len));
          h_ret (Some kvs, cpaths')
      | None =>
          match so_next r with
          | Some next => h_build_path_rec fuel' len key next cpaths'
          | None =>
              hop _ <- h_lift (assert "assert_eq cursor.paths.len path_len" (length cpaths' =? len));
              h_ret (None, cpaths')
          end
      end
  end.

(** The lookup of ext, src/skiplist.rs:233-240. *)
Definition h_find (s : sskiplist) (k : K) : hm (N * option (list (K * option V)) * list (option loc)) :=
  hop mask <- h_lift (make_mask (s_path_len s));
  let k_hash := N.land (my_hash k) mask in
  match s_head s with
  | None => h_ret (k_hash, None, [])
  | Some a =>
      hop ' (kvs, cp) <- h_build_path_rec (s_path_len s + 2) (s_path_len s) k_hash a [];
      h_ret (k_hash, kvs, cp)
  end.

(** ext, src/skiplist.rs:232-275, in the namespace [q]. *)
Definition h_ext (q : list name) (s : sskiplist) (k : K) (opv : option V) : hm (option V * sskiplist) :=
  hop ' (k_hash, old_kvs, cp) <- h_find s k;
  let '(new_kvs, opv_old, cp') :=
    match old_kvs with
    | Some kvs =>
        let '(new_kvs, opv_old, found) := fold_left (ext_pair keqb k opv) kvs ([], None, false) in
        (if found then new_kvs else new_kvs ++ [(k, opv)], opv_old, cp)
    | None => ([(k, opv)], None, s_fill_empty cp (s_path_len s))
    end in
  let a : loc := (q, NPair (s_name s) (NNum (s_cntr s))) in
  hop _ <- h_put_cell a (SPath k_hash new_kvs cp');
  h_ret (match opv_old with Some o => o | None => None end,
         SSkiplist (s_path_len s) (s_name s) (s_cntr s + 1) (Some a)).

(** put, src/skiplist.rs:281-283. *)
Definition h_put (q : list name) (s : sskiplist) (k : K) (v : V) : hm sskiplist :=
  hop ' (_, s') <- h_ext q s k (Some v); h_ret s'.
End Skip.

(** [fold_lr_meta], src/level_tree.rs:135-173, with a function that uses cells; [k] bounds
    the depth. *)
Section Fold.
Context {T A K V R : Type} (eqA : forall x y : A, {x = y} + {x <> y}) (eqK : forall x y : K, {x = y} + {x <> y})
  (eqV : forall x y : V, {x = y} + {x <> y}) (eqR : forall x y : R, {x = y} + {x <> y}) {Nsp : here}.
Notation hm := (@hm T A K V (stree A * option name * R) R).
Fixpoint h_fold_lr_meta (k : nat) (f : R -> A -> level -> option name -> hm R)
    (t : stree A) (start_name : option name) (accum : R) : hm R :=
  match k with
  | O => h_lift Fuel
  | S k =>
      hop _ <- h_enter t;
      hop ' (d, l, r) <- h_force t;
      match l, r with
      | None, None => f accum d (st_level t) start_name
      | _, _ =>
          hop a1 <- match l with
                    | None => h_ret accum
                    | Some t1 => h_memo_opt eqA eqK eqV (slr_same eqA eqR) (fork_left (st_name t)) (t1, start_name, accum)
                                   (h_fold_lr_meta k f t1 start_name accum)
                    end;
          hop a2 <- f a1 d (st_level t) (st_name t);
          match r with
          | None => h_ret a2
          | Some t2 => h_memo_opt eqA eqK eqV (slr_same eqA eqR) (fork_right (st_name t)) (t2, st_name t, a2)
                         (h_fold_lr_meta k f t2 (st_name t) a2)
          end
      end
  end.
End Fold.

Section Unique.
Context {E M : Type} {RM : RazMeta E M} (eqD : forall x y : tree_data E M, {x = y} + {x <> y})
  (eqE : forall x y : E, {x = y} + {x <> y}) {Nsp : here}.
Context (my_hash : E -> N) (debug : bool).
Notation hm := (@hm (level * list E) (tree_data E M) E unit (stree (tree_data E M) * option name * sskiplist) sskiplist).
Definition eq_unit (x y : unit) : {x = y} + {x <> y}.
Proof. decide equality. Defined.
Definition eqb_of (a b : E) : bool := if eqE a b then true else false.

(** [vec.iter().fold(a, ..)], src/raz.rs:274. *)
Fixpoint h_each (f : sskiplist -> E -> hm sskiplist) (l : list E) (a : sskiplist) : hm sskiplist :=
  match l with
  | [] => h_ret a
  | e :: r => hop a1 <- f a e; h_each f r a1
  end.
(** The closure of [fold_lr_archive], src/raz.rs:271-281, with those given to [HFolder::new]
    at eval/examples/unique_elms.rs:99-103. *)
Definition h_unique_node (a : sskiplist) (d : tree_data E M) (l : level) (n : option name) : hm sskiplist :=
  match d with
  | Leaf v =>
      hop a1 <- h_each (fun a e => h_put eqb_of my_hash debug StoreModel.path a e tt) v a;
      h_ret (match n with None => a1 | Some nm => ssk_archive a1 nm end)
  | _ => h_ret a
  end.

(** eval/examples/unique_elms.rs:97-106: all in the namespace that [HFolder] enters
    (eval/src/actions.rs:499, 522). *)
Definition unique_elms_inc (k pathlen : nat) (t : sraz_tree E M) : hm sskiplist :=
  let init := ssk_archive (ssk_emp pathlen NUnit) NUnit in
  match srt_tree t with
  | None => h_ret init
  | Some tr => h_fold_lr_meta eqD eqE eq_unit eq_sskiplist k h_unique_node tr (Some (NStr "start")) init
  end.
End Unique.
