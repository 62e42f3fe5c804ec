(** * The computation of eval/examples/tree_to_list.rs over stores of named cells, with memo
      entries that know what was read and what was written.

    As UniqueIncModel, for accumulators that are lists or stacks: pushing and archiving read
    no cells, archiving with a name writes one. The cells of the tree are in one store, those
    of the accumulator, whose contents have the type [C], in another. An entry of the memo
    table holds the arguments of the call, the cells read and written (each with its content)
    and the result. A call is answered from its entry when the arguments are the recorded
    ones, compared as handles, and every cell read or written then has the recorded content
    now; otherwise the body runs and the entry is replaced. Simplifications: those of
    IncModel. *)

From Verif Require Import Base StackModel AStackModel LevelTreeModel TreeCursorModel RazMetaModel RazModel MemoModel StoreModel IncModel.

Section Engine.
Context {T A C : Type} (eqA : forall x y : A, {x = y} + {x <> y}) (eqC : forall x y : C, {x = y} + {x <> y}).

(** The cells of the accumulator. *)
Definition wcells : Type := loc -> option C.
Definition w_write (cs : wcells) (a : loc) (c : C) : wcells := fun b => if loc_eq_dec b a then Some c else cs b.

(** A cell read or written, and its content: of the tree, of the accumulator. *)
Inductive wseen : Type :=
| WNode (s : @seen A)
| WCell (a : loc) (c : C).
Definition wholds (st : store T A) (cs : wcells) (s : wseen) : bool :=
  match s with
  | WNode s => holds eqA st s
  | WCell a c => match cs a with Some c' => if eqC c c' then true else false | None => false end
  end.

(** A memo entry, and the table of entries. *)
Record wentry (X R : Type) : Type := WEntry { we_arg : X; we_seen : list wseen; we_res : R }.
Arguments WEntry {X R} we_arg we_seen we_res.
Arguments we_arg {X R} _.
Arguments we_seen {X R} _.
Arguments we_res {X R} _.
Definition wtab (X R : Type) : Type := loc -> option (wentry X R).
Definition no_wentries {X R} : wtab X R := fun _ => None.
Definition w_set {X R} (tab : wtab X R) (a : loc) (e : wentry X R) : wtab X R :=
  fun b => if loc_eq_dec b a then Some e else tab b.

(** Computations: the result, the cells of the accumulator left, the cells read and written,
    the table left, and the handles whose body has run. *)
Definition wm (X R Y : Type) : Type :=
  store T A -> wcells -> wtab X R -> res (Y * wcells * list wseen * wtab X R * list (stree A)).
Definition w_ret {X R Y} (y : Y) : wm X R Y := fun _ cs tab => Ok (y, cs, [], tab, []).
Definition w_bind {X R Y Z} (m : wm X R Y) (f : Y -> wm X R Z) : wm X R Z :=
  fun st cs tab =>
    do ' (y, cs1, s1, tab1, lg1) <- m st cs tab;
    do ' (z, cs2, s2, tab2, lg2) <- f y st cs1 tab1;
    Ok (z, cs2, s1 ++ s2, tab2, lg1 ++ lg2).
Definition w_lift {X R Y} (m : res Y) : wm X R Y := fun _ cs tab => do y <- m; Ok (y, cs, [], tab, []).

(** The body of the call with this handle runs: nothing in the code, it is counted. *)
Definition w_enter {X R} (t : stree A) : wm X R unit := fun _ cs tab => Ok (tt, cs, [], tab, [t]).

(** [force(&self.link)], src/level_tree.rs:159. *)
Definition w_force {X R} (t : stree A) : wm X R (A * option (stree A) * option (stree A)) :=
  fun st cs tab =>
    do x <- unwrap "force: no such node" (tree_look st t);
    Ok (x, cs, match t with TPut _ _ _ _ => [] | TCell _ a => [WNode (a, x)] end, tab, []).

(** [cell(n, c)] of the accumulators: eval/src/accum_lists.rs:31, 68, 118, 168,
    src/stack.rs:127. *)
Context {Nsp : here}.
Definition w_cell {X R} (n : name) (c : C) : wm X R loc :=
  fun _ cs tab => Ok ((path, n), w_write cs (path, n) c, [WCell (path, n) c], tab, []).

(** [memo!(n =>> body, k ;; ..)]; a plain call without a name. *)
Definition w_memo {X R} (same : X -> X -> bool) (n : name) (k : X) (body : wm X R R) : wm X R R :=
  fun st cs tab =>
    let rerun :=
      do ' (r, cs', s, tab', lg) <- body st cs tab;
      Ok (r, cs', s, w_set tab' (path, n) (WEntry k s r), lg) in
    match tab (path, n) with
    | Some e =>
        if same k (we_arg e) && forallb (wholds st cs) (we_seen e) then Ok (we_res e, cs, we_seen e, tab, [])
        else rerun
    | None => rerun
    end.
Definition w_memo_opt {X R} (same : X -> X -> bool) (n : option name) (k : X) (body : wm X R R) : wm X R R :=
  match n with
  | Some n => w_memo same n k body
  | None => body
  end.
End Engine.
Arguments wcells C : clear implicits.
Arguments wseen A C : clear implicits.
Arguments wentry A C X R : clear implicits.
Arguments wtab A C X R : clear implicits.
Arguments wm T A C X R Y : clear implicits.
Arguments WEntry {A C X R} we_arg we_seen we_res.
Arguments we_arg {A C X R} _.
Arguments we_seen {A C X R} _.
Arguments we_res {A C X R} _.
Notation "'wop' x <- m ; k" := (w_bind m (fun x => k))
  (at level 200, x name, m at level 100, k at level 200).
Notation "'wop' ' p <- m ; k" := (w_bind m (fun p => k))
  (at level 200, p pattern, m at level 100, k at level 200).

(** [fold_lr_meta], src/level_tree.rs:135-173, with a function that uses cells; [k] bounds
    the depth. *)
Section Fold.
Context {T A C R : Type} (eqA : forall x y : A, {x = y} + {x <> y}) (eqC : forall x y : C, {x = y} + {x <> y})
  (eqR : forall x y : R, {x = y} + {x <> y}) {Nsp : here}.
Notation wm := (wm T A C (stree A * option name * R) R).
Fixpoint w_fold_lr_meta (k : nat) (f : R -> A -> level -> option name -> wm R)
    (t : stree A) (start_name : option name) (accum : R) : wm R :=
  match k with
  | O => w_lift Fuel
  | S k =>
      wop _ <- w_enter t;
      wop ' (d, l, r) <- w_force t;
      match l, r with
      | None, None => f accum d (st_level t) start_name
      | _, _ =>
          wop a1 <- match l with
                    | None => w_ret accum
                    | Some t1 => w_memo_opt eqA eqC (slr_same eqA eqR) (fork_left (st_name t)) (t1, start_name, accum)
                                   (w_fold_lr_meta k f t1 start_name accum)
                    end;
          wop a2 <- f a1 d (st_level t) (st_name t);
          match r with
          | None => w_ret a2
          | Some t2 => w_memo_opt eqA eqC (slr_same eqA eqR) (fork_right (st_name t)) (t2, st_name t, a2)
                         (w_fold_lr_meta k f t2 (st_name t) a2)
          end
      end
  end.
End Fold.

(** ** The accumulators *)
Section Accumulators.
Context {X : Type}.

(** [List], eval/src/accum_lists.rs:5-11, and [RcList], 42-48. *)
Inductive slist : Type :=
| SLNil
| SLCons (x : X) (l : slist)
| SLName (n : name) (l : slist)
| SLArt (a : loc).
(** [VecList], eval/src/accum_lists.rs:79-85, and [RcVecList], 129-135. *)
Inductive svlist : Type :=
| SVNil
| SVCons (v : list X) (l : svlist)
| SVName (n : name) (l : svlist)
| SVArt (a : loc).

Section Ops.
Context {T A Y R : Type} {Nsp : here}.
(** [archive], eval/src/accum_lists.rs:28-33 and 65-70. *)
Definition sl_archive (l : slist) (m : level * option name) : wm T A slist Y R slist :=
  match snd m with
  | None => w_ret l
  | Some n => wop a <- w_cell n l; w_ret (SLName n (SLArt a))
  end.
(** [seq_push], eval/src/accum_lists.rs:88-96 and 138-146. *)
Definition svl_push (l : svlist) (val : X) : svlist :=
  match l with
  | SVCons v bl => SVCons (v ++ [val]) bl
  | _ => SVCons [val] l
  end.
(** [archive], eval/src/accum_lists.rs:115-120 and 165-170. *)
Definition svl_archive (l : svlist) (m : level * option name) : wm T A svlist Y R svlist :=
  match snd m with
  | None => w_ret l
  | Some n => wop a <- w_cell n l; w_ret (SVName n (SVArt a))
  end.

(** [Body], src/stack.rs:32-36: what the cells of a stack hold. *)
Definition body (S : Type) : Type := S * option (shead S).
(** [push_onto], src/stack.rs:114-133, [Stack::push], 51-53. *)
Definition w_stack_push {S} (s : option (shead S)) (nm : option name) (e : S) : wm T A (body S) Y R (option (shead S)) :=
  match nm with
  | None => w_ret (Some (HPut e s))
  | Some n => wop a <- w_cell n (e, s); w_ret (Some (HCell a))
  end.
(** [AStack::archive], src/archive_stack.rs:156-166, as used at
    eval/src/interface.rs:70-83: [meta] keeps the level or drops it. *)
Definition was_archive {M} (meta : level -> M) (s : sastack X M) (m : level * option name)
    : wm T A (body (M * list X)) Y R (sastack X M) :=
  match sa_current s with
  | [] => w_ret s
  | _ => wop a <- w_stack_push (sa_archived s) (snd m) (meta (fst m), sa_current s); w_ret (SAStack [] a)
  end.
End Ops.
End Accumulators.
Arguments slist X : clear implicits.
Arguments svlist X : clear implicits.

(** Equality of the accumulators: the [PartialEq] derived at eval/src/accum_lists.rs:5, 42,
    79 and 129, src/stack.rs:22-36, src/archive_stack.rs:34-40. *)
Section Equality.
Context {X : Type} (eqX : forall x y : X, {x = y} + {x <> y}).
Definition eq_slist (x y : slist X) : {x = y} + {x <> y}.
Proof. decide equality; [apply name_eq_dec|apply loc_eq_dec]. Defined.
Definition eq_svlist (x y : svlist X) : {x = y} + {x <> y}.
Proof. decide equality; [apply (list_eq_dec eqX)|apply name_eq_dec|apply loc_eq_dec]. Defined.
End Equality.
Section StackEquality.
Context {S : Type} (eqS : forall x y : S, {x = y} + {x <> y}).
Fixpoint eq_shead (x y : shead S) {struct x} : {x = y} + {x <> y}.
Proof.
  destruct x as [e n|a], y as [e' n'|a']; try (right; discriminate).
  - destruct (eqS e e') as [->|Q]; [|right; congruence].
    destruct n as [h|], n' as [h'|]; try (right; discriminate); [|now left].
    destruct (eq_shead h h') as [->|Q]; [now left|right; congruence].
  - destruct (loc_eq_dec a a') as [->|Q]; [now left|right; congruence].
Defined.
Definition eq_ohead (x y : option (shead S)) : {x = y} + {x <> y}.
Proof. decide equality. apply eq_shead. Defined.
Definition eq_body (x y : body S) : {x = y} + {x <> y}.
Proof. decide equality. apply eq_ohead. Defined.
End StackEquality.
Definition eq_sastack {X M : Type} (eqX : forall x y : X, {x = y} + {x <> y}) (eqM : forall x y : M, {x = y} + {x <> y})
  (x y : sastack X M) : {x = y} + {x <> y}.
Proof. decide equality; [|apply (list_eq_dec eqX)]. apply eq_ohead. decide equality. apply (list_eq_dec eqX). Defined.

(** ** The computation *)
Section ToList.
Context {E M C R : Type} {RM : RazMeta E M} (eqD : forall x y : tree_data E M, {x = y} + {x <> y})
  (eqC : forall x y : C, {x = y} + {x <> y}) (eqR : forall x y : R, {x = y} + {x <> y}) {Nsp : here}.
Notation wm := (wm (level * list E) (tree_data E M) C (stree (tree_data E M) * option name * R) R).
Context (push : R -> E -> R) (archive : R -> level * option name -> wm R).

(** The closure of [fold_lr_meta], src/raz.rs:248-257. *)
Definition w_node (a : R) (d : tree_data E M) (l : level) (n : option name) : wm R :=
  match d with
  | Leaf v => w_ret (fold_left push v a)
  | _ => archive a (l, n)
  end.
(** [RazTree::fold_lr_meta], src/raz.rs:239-260, with the closures of
    eval/examples/tree_to_list.rs:95-101: all in the namespace that [MFolder] enters
    (eval/src/actions.rs:418-420, 440-442). *)
Definition w_rt_fold_lr_meta (init : R) (k : nat) (t : sraz_tree E M) : wm R :=
  match srt_tree t with
  | None => w_ret init
  | Some tr => w_fold_lr_meta eqD eqC eqR k w_node tr (Some (NStr "start")) init
  end.
End ToList.

(** tree_to_list into a [List] or [RcList], a [VecList] or [RcVecList], an [IAStack]:
    eval/examples/tree_to_list.rs:103-188. *)
Section Uses.
Context {E M : Type} {RM : RazMeta E M} (eqD : forall x y : tree_data E M, {x = y} + {x <> y})
  (eqE : forall x y : E, {x = y} + {x <> y}) {Nsp : here}.
Definition to_list_inc (k : nat) (t : sraz_tree E M) :=
  w_rt_fold_lr_meta eqD (eq_slist eqE) (eq_slist eqE) (fun l e => SLCons e l) sl_archive SLNil k t.
Definition to_vlist_inc (k : nat) (t : sraz_tree E M) :=
  w_rt_fold_lr_meta eqD (eq_svlist eqE) (eq_svlist eqE) svl_push svl_archive SVNil k t.
Definition to_stack_inc {P : Type} (eqP : forall x y : P, {x = y} + {x <> y}) (meta : level -> P) (k : nat) (t : sraz_tree E M) :=
  w_rt_fold_lr_meta eqD (eq_body (fun x y : P * list E => ltac:(decide equality; apply (list_eq_dec eqE)))) (eq_sastack eqE eqP)
    sa_push (was_archive meta) sa_new k t.
End Uses.
