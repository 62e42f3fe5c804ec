(** * Programs over the store model and over the pure model.

    These only sequence the models' functions and record what they return. *)

From Verif Require Import Base SpecRaz StackModel AStackModel LevelTreeModel TreeCursorModel
  RazMetaModel RazModel RazScripts TreeSpec StoreModel StoreSpec.

Section Raz.
Context {E M : Type} {RM : RazMeta E M} {Nsp : here}.
Notation rm := (sm (level * list E) (tree_data E M)).

Definition s_zstep (k : nat) (z : sraz_z E M) (o : zop E) : rm (zout E * sraz_z E M) :=
  match o with
  | OPushL e => let (n, z') := s_push_left z e in s_ret (OutLen n, z')
  | OPushR e => let (n, z') := s_push_right z e in s_ret (OutLen n, z')
  | OPopL => act ' (x, z') <- s_pop_left k z; s_ret (OutElt x, z')
  | OPopR => act ' (x, z') <- s_pop_right k z; s_ret (OutElt x, z')
  | OPeekL => act x <- s_peek_left k z; s_ret (OutElt x, z)
  | OPeekR => act x <- s_peek_right k z; s_ret (OutElt x, z)
  | OArchL lev nm => act z' <- s_archive_left z lev nm; s_ret (OutNone, z')
  | OArchR lev nm => act z' <- s_archive_right z lev nm; s_ret (OutNone, z')
  end.

Fixpoint s_zrun (k : nat) (z : sraz_z E M) (ops : list (zop E)) : rm (list (zout E) * sraz_z E M) :=
  match ops with
  | [] => s_ret ([], z)
  | o :: r =>
      act ' (x, z1) <- s_zstep k z o;
      act ' (xs, z2) <- s_zrun k z1 r;
      s_ret (x :: xs, z2)
  end.

(** The client holds a list of values; each command names its operands by position
    and appends what it creates. [focus], [unfocus] and [join] take their operands by
    value and so use them up; [CClone] clones, [CDrop] drops. A command whose operand is missing
    answers [CBad]; one that returns [None] answers [CNothing]. *)
Inductive val (A Z : Type) : Type := VTree (t : A) | VRaz (z : Z) | VGone.
Arguments VTree {A Z} t.
Arguments VRaz {A Z} z.
Arguments VGone {A Z}.

Fixpoint put_at {A Z} (i : nat) (v : val A Z) (p : list (val A Z)) : list (val A Z) :=
  match p, i with
  | [], _ => []
  | _ :: r, O => v :: r
  | x :: r, S i => x :: put_at i v r
  end.

Inductive cout : Type :=
| CDone | CNothing | CBad
| CZ (x : zout E)
| CTree (m : M) (t : option (tree (tree_data E M))).

(** The pure reading. *)
Definition p_step (p : list (val (raz_tree E M) (raz E M))) (c : cmd E Index)
    : res (cout * list (val (raz_tree E M) (raz E M))) :=
  match c with
  | CEmpty => do t <- rt_empty; Ok (CDone, p ++ [VTree t])
  | CVec v =>
      do o <- rt_from_vec v;
      Ok match o with Some t => (CDone, p ++ [VTree t]) | None => (CNothing, p) end
  | CRaz => Ok (CDone, p ++ [VRaz raz_new])
  | CJoin i lev nm j =>
      match nth_error p i, nth_error (put_at i VGone p) j with
      | Some (VTree a), Some (VTree b) =>
          do o <- rt_join a lev nm b;
          let p' := put_at j VGone (put_at i VGone p) in
          Ok match o with Some t => (CDone, p' ++ [VTree t]) | None => (CNothing, p') end
      | _, _ => Ok (CBad, p)
      end
  | CFocus i x =>
      match nth_error p i with
      | Some (VTree t) =>
          do o <- rt_focus t x;
          Ok match o with
             | Some z => (CDone, put_at i VGone p ++ [VRaz z])
             | None => (CNothing, put_at i VGone p)
             end
      | _ => Ok (CBad, p)
      end
  | CFocusLeft i =>
      match nth_error p i with
      | Some (VTree t) =>
          do z <- rt_focus_left t;
          Ok (CDone, put_at i VGone p ++ [VRaz z])
      | _ => Ok (CBad, p)
      end
  | CUnfocus i =>
      match nth_error p i with
      | Some (VRaz z) =>
          do t <- unfocus z;
          Ok (CDone, put_at i VGone p ++ [VTree t])
      | _ => Ok (CBad, p)
      end
  | CStep i o =>
      match nth_error p i with
      | Some (VRaz z) =>
          do ' (x, z') <- zstep z o;
          Ok (CZ x, put_at i (VRaz z') p)
      | _ => Ok (CBad, p)
      end
  | CRead i =>
      match nth_error p i with
      | Some (VTree t) => Ok (CTree (rt_meta t) (rt_tree t), p)
      | _ => Ok (CBad, p)
      end
  | CClone i =>
      match nth_error p i with
      | Some v => Ok (CDone, p ++ [v])
      | None => Ok (CBad, p)
      end
  | CDrop i =>
      match nth_error p i with
      | Some _ => Ok (CDone, put_at i VGone p)
      | None => Ok (CBad, p)
      end
  end.

Fixpoint p_run (p : list (val (raz_tree E M) (raz E M))) (cs : list (cmd E Index))
    : res (list cout * list (val (raz_tree E M) (raz E M))) :=
  match cs with
  | [] => Ok ([], p)
  | c :: r =>
      do ' (x, p1) <- p_step p c;
      do ' (xs, p2) <- p_run p1 r;
      Ok (x :: xs, p2)
  end.

(** The same over a store. *)
Definition s_step (k : nat) (p : list (val (sraz_tree E M) (sraz_z E M))) (c : cmd E Index)
    : rm (cout * list (val (sraz_tree E M) (sraz_z E M))) :=
  match c with
  | CEmpty => act t <- s_rt_empty; s_ret (CDone, p ++ [VTree t])
  | CVec v =>
      act o <- s_rt_from_vec v;
      s_ret match o with Some t => (CDone, p ++ [VTree t]) | None => (CNothing, p) end
  | CRaz => s_ret (CDone, p ++ [VRaz s_raz_new])
  | CJoin i lev nm j =>
      match nth_error p i, nth_error (put_at i VGone p) j with
      | Some (VTree a), Some (VTree b) =>
          act o <- s_rt_join a lev nm b;
          let p' := put_at j VGone (put_at i VGone p) in
          s_ret match o with Some t => (CDone, p' ++ [VTree t]) | None => (CNothing, p') end
      | _, _ => s_ret (CBad, p)
      end
  | CFocus i x =>
      match nth_error p i with
      | Some (VTree t) =>
          act o <- s_focus k t x;
          s_ret match o with
                | Some z => (CDone, put_at i VGone p ++ [VRaz z])
                | None => (CNothing, put_at i VGone p)
                end
      | _ => s_ret (CBad, p)
      end
  | CFocusLeft i =>
      match nth_error p i with
      | Some (VTree t) =>
          act z <- s_focus_left k t;
          s_ret (CDone, put_at i VGone p ++ [VRaz z])
      | _ => s_ret (CBad, p)
      end
  | CUnfocus i =>
      match nth_error p i with
      | Some (VRaz z) =>
          act t <- s_unfocus k z;
          s_ret (CDone, put_at i VGone p ++ [VTree t])
      | _ => s_ret (CBad, p)
      end
  | CStep i o =>
      match nth_error p i with
      | Some (VRaz z) =>
          act ' (x, z') <- s_zstep k z o;
          s_ret (CZ x, put_at i (VRaz z') p)
      | _ => s_ret (CBad, p)
      end
  | CRead i =>
      match nth_error p i with
      | Some (VTree t) =>
          act o <- match srt_tree t with
                   | None => s_ret None
                   | Some tr => act x <- st_read k tr; s_ret (Some x)
                   end;
          s_ret (CTree (srt_meta t) o, p)
      | _ => s_ret (CBad, p)
      end
  | CClone i =>
      match nth_error p i with
      | Some v => s_ret (CDone, p ++ [v])
      | None => s_ret (CBad, p)
      end
  | CDrop i =>
      match nth_error p i with
      | Some _ => s_ret (CDone, put_at i VGone p)
      | None => s_ret (CBad, p)
      end
  end.

Fixpoint s_run (k : nat) (p : list (val (sraz_tree E M) (sraz_z E M))) (cs : list (cmd E Index))
    : rm (list cout * list (val (sraz_tree E M) (sraz_z E M))) :=
  match cs with
  | [] => s_ret ([], p)
  | c :: r =>
      act ' (x, p1) <- s_step k p c;
      act ' (xs, p2) <- s_run k p1 r;
      s_ret (x :: xs, p2)
  end.
End Raz.
Arguments cout E M : clear implicits.
Arguments VTree {A Z} t.
Arguments VRaz {A Z} z.
Arguments VGone {A Z}.

(** Stacks: the client keeps every stack it ever made. *)
Section Stack.
Context {T A : Type} {Nsp : here}.

Definition k_step (p : list (option (shead T))) (c : kcmd T)
    : sm T A (kout T * list (option (shead T))) :=
  match c with
  | KNew => s_ret (KDone, p ++ [None])
  | KPush i nm e =>
      match nth_error p i with
      | Some s => act s' <- ss_push s nm e; s_ret (KDone, p ++ [s'])
      | None => s_ret (KBad, p)
      end
  | KPull i =>
      match nth_error p i with
      | Some s =>
          act o <- ss_pull s;
          s_ret match o with Some s' => (KDone, p ++ [s']) | None => (KNothing, p) end
      | None => s_ret (KBad, p)
      end
  | KPeek i =>
      match nth_error p i with
      | Some s => act x <- ss_peek s; s_ret (KElt x, p)
      | None => s_ret (KBad, p)
      end
  | KName i =>
      match nth_error p i with
      | Some s => s_ret (KNm (ss_name s), p)
      | None => s_ret (KBad, p)
      end
  | KEmpty i =>
      match nth_error p i with
      | Some s => s_ret (KBool (ss_is_empty s), p)
      | None => s_ret (KBad, p)
      end
  | KTake n i =>
      match nth_error p i with
      | Some s => act l <- ss_take n s; s_ret (KList l, p)
      | None => s_ret (KBad, p)
      end
  end.

Fixpoint k_run (p : list (option (shead T))) (cs : list (kcmd T))
    : sm T A (list (kout T) * list (option (shead T))) :=
  match cs with
  | [] => s_ret ([], p)
  | c :: r =>
      act ' (x, p1) <- k_step p c;
      act ' (xs, p2) <- k_run p1 r;
      s_ret (x :: xs, p2)
  end.
End Stack.

(** What a tree handle reads as, and the cells that reading looks at. *)
Definition reads {T A} (st : store T A) (h : stree A) (t : tree A) : Prop :=
  exists k, st_read k h st = Ok (t, st).

(** ** Names in use

    A tree uses the names of its nodes. A Raz uses those of the trees it will still
    visit (of a node in a forest: its own, and those of the branch not entered), and of
    each archive point in its stacks the name and the name its node will get. *)
Section Live.
Context {E M : Type} {RM : RazMeta E M} {Nsp : here}.

Definition in_tree (o : option (tree (tree_data E M))) (n : name) : Prop :=
  exists lv d, In (lv, Some n, d) (oinorder o).
Definition in_cursor (c : cursor (tree_data E M)) (n : name) : Prop :=
  in_tree (c_tree c) n \/
  (exists b t, In (b, t) (l_forest c) /\ (t_name t = Some n \/ in_tree (t_left t) n)) \/
  (exists b t, In (b, t) (r_forest c) /\ (t_name t = Some n \/ in_tree (t_right t) n)).
Fixpoint point_names {T} (h : head T) : list (option name) :=
  match h with
  | Head nm _ nx => nm :: match nx with None => [] | Some h1 => point_names h1 end
  end.
Definition in_stack (a : astack E level) (n : name) : Prop :=
  exists h m, archived a = Some h /\ In (Some m) (point_names h) /\ (n = m \/ point_name (Some m) = Some n).
Definition in_use (v : val (raz_tree E M) (raz E M)) (n : name) : Prop :=
  match v with
  | VTree t => in_tree (rt_tree t) n
  | VRaz z => in_cursor (z_l_forest z) n \/ in_cursor (z_r_forest z) n \/
              in_stack (z_l_stack z) n \/ in_stack (z_r_stack z) n
  | VGone => False
  end.

(** A step may only bring names that no value uses, and clone only values without
    names. *)
Definition names_ok (p : list (val (raz_tree E M) (raz E M))) (c : cmd E Index) : Prop :=
  NoDup (c_names c) /\
  (forall n v, In n (c_names c) -> In v p -> ~ in_use v n) /\
  (forall i v n, c = CClone i -> nth_error p i = Some v -> ~ in_use v n).
Fixpoint names_ok_run (p : list (val (raz_tree E M) (raz E M))) (cs : list (cmd E Index)) : Prop :=
  match cs with
  | [] => True
  | c :: r => names_ok p c /\
      match p_step p c with Ok (_, p1) => names_ok_run p1 r | _ => True end
  end.
End Live.

(** ** Namespaces

    The store without the cells of one namespace: what can be read there is read
    without looking into it. *)
Definition without {T A} (q : list name) (st : store T A) : store T A :=
  fun a => if list_eq_dec name_eq_dec (fst a) q then None else st a.

Section Show.
Context {E M : Type}.
Definition tree_reads (st : store (level * list E) (tree_data E M)) (h : sraz_tree E M) (t : raz_tree E M) : Prop :=
  srt_meta h = rt_meta t /\
  match srt_tree h, rt_tree t with
  | None, None => True
  | Some a, Some b => reads st a b
  | _, _ => False
  end.
(** The client's values as they should be (of a Raz only that it is one: it shows
    in the answers). *)
Definition shows (st : store (level * list E) (tree_data E M))
    (s : val (sraz_tree E M) (sraz_z E M)) (v : val (raz_tree E M) (raz E M)) : Prop :=
  match s, v with
  | VTree h, VTree t => tree_reads st h t
  | VRaz _, VRaz _ => True
  | VGone, VGone => True
  | _, _ => False
  end.
Definition node_names (t : raz_tree E M) : list name :=
  flat_map (fun x => names_of (snd (fst x))) (oinorder (rt_tree t)).
End Show.
