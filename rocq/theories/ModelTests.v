(** * The repository's own unit tests, replayed on the model.

    These are checks of the translation, not property theorems. *)

From Verif Require Import Base StackModel AStackModel LevelTreeModel TreeCursorModel
  RazMetaModel RazModel SkiplistModel.

#[local] Arguments Node {A} _%N_scope _ _ _ _.
#[local] Arguments bin {E M _} _ _%N_scope _ _.

Definition num (n : N) : option name := Some (NNum n).

(** ** src/stack.rs tests *)
Example t_stack_push_peek :
  let b := stack_push (stack_push (@stack_new nat) (num 5) 5) (num 6) 6 in
  stack_peek b = Some 6 /\ option_map stack_peek (stack_pull b) = Some (Some 5).
Proof. split; reflexivity. Qed.

(** test_iter, src/stack.rs:180-188 *)
Fixpoint collect {T} (fuel : nat) (i : iter T) : list T :=
  match fuel with
  | O => []
  | S f => match iter_next i with (Some x, i) => x :: collect f i | (None, _) => [] end
  end.
Example t_stack_iter :
  collect 9 (head_iter (head_push (head_push (head_push (head_new (num 4) 4) (num 3) 3) (num 2) 2) (num 1) 1))
  = [1; 2; 3; 4].
Proof. reflexivity. Qed.

(** ** src/archive_stack.rs tests: a small script interpreter *)
Bind Scope N_scope with N.
Bind Scope N_scope with level.
Inductive aop := APush (n : nat) | AArch (k : N) | APop | APeek | ANext.
Inductive aobs := OElt (o : option nat) | OVec (o : option (list nat)).
Fixpoint arun (s : astack nat unit) (ops : list aop) : res (list aobs * bool) :=
  match ops with
  | [] => Ok ([], as_is_empty s)
  | APush n :: r => arun (as_push s n) r
  | AArch k :: r => arun (snd (as_archive s (num k) tt)) r
  | APop :: r => do ' (e, s) <- as_pop s; do ' (l, b) <- arun s r; Ok (OElt e :: l, b)
  | APeek :: r => do e <- as_peek s; do ' (l, b) <- arun s r; Ok (OElt e :: l, b)
  | ANext :: r => do ' (v, s) <- as_next_archive s; do ' (l, b) <- arun s r;
                  Ok (OVec (option_map fst v) :: l, b)
  end.

(** test_retrieve, src/archive_stack.rs:215-239 *)
Example t_astack_retrieve :
  arun as_new [APush 5; APush 2; APush 3; ANext; APush 4; APush 2; APush 4; AArch 1;
               APush 9; APush 3; APush 7; AArch 2; ANext; ANext; ANext]
  = Ok ([OVec (Some [5;2;3]); OVec (Some []); OVec (Some [9;3;7]); OVec (Some [4;2;4])], true).
Proof. vm_compute. reflexivity. Qed.

(** test_through_archive *)
Example t_astack_through :
  arun as_new [APush 4; APush 2; APush 4; AArch 1; APush 9; APush 3; APop; APop; APop; APop]
  = Ok (map OElt [Some 3; Some 9; Some 4; Some 2], false).
Proof. vm_compute. reflexivity. Qed.

(** test_peek_archive *)
Example t_astack_peek :
  arun as_new [APush 4; APush 2; APush 4; AArch 1; APush 9; APush 3; APeek; APeek; APop;
               APeek; APop; APeek; APeek; APop; APop; APop]
  = Ok (map OElt [Some 3; Some 3; Some 3; Some 9; Some 9; Some 4; Some 4; Some 4; Some 2; Some 4], true).
Proof. vm_compute. reflexivity. Qed.

(** test_iter, src/archive_stack.rs:281-298: [next] is [pop] *)
Example t_astack_iter :
  arun as_new [APush 4; APush 2; APush 4; AArch 1; APush 9; APush 3; APush 7; AArch 2; APush 6; APush 1; APush 3;
               APop; APop; APop; APop; APop; APop; APop; APop; APop; APop]
  = Ok (map OElt [Some 3; Some 1; Some 6; Some 7; Some 3; Some 9; Some 4; Some 2; Some 4; None], true).
Proof. vm_compute. reflexivity. Qed.

(** ** src/tree_cursor.rs tests *)
#[local] Instance nat_update : TreeUpdate nat := derive_tree_update nat.

Definition ex_tree : tree nat :=
  Node 5 (num 5) 1
    (Some (Node 3 (num 3) 2
       (Some (Node 0 None 4 None None))
       (Some (Node 2 (num 2) 5
          (Some (Node 1 (num 1) 8
             (Some (Node 0 None 10 None None))
             (Some (Node 0 None 11 None None))))
          (Some (Node 0 None 9 None None))))))
    (Some (Node 4 (num 4) 3
       (Some (Node 0 None 6 None None))
       (Some (Node 0 None 7 None None)))).

Inductive mv := L | R | U | LD | RD | LY | RY.
Fixpoint crun (c : cursor nat) (ms : list mv) : res (list (bool * option nat) * cursor nat) :=
  match ms with
  | [] => Ok ([], c)
  | m :: ms =>
      do ' (b, c) <-
        match m with
        | L => Ok (down_left c) | R => Ok (down_right c)
        | LD => Ok (down_left_force ForceDiscard c) | RD => Ok (down_right_force ForceDiscard c)
        | LY => Ok (down_left_force ForceYes c) | RY => Ok (down_right_force ForceYes c)
        | U => do ' (u, c) <- up c; Ok (negb (up_failed u), c)
        end;
      do ' (l, c') <- crun c ms;
      Ok ((b, c_peek c) :: l, c')
  end.

(** test_movement, src/tree_cursor.rs:467-513 *)
Example t_movement :
  (do ' (l, _) <- crun (c_from ex_tree) [L;R;L;R;U;U;U;LD;U;R;R;R;RY]; Ok l)
  = Ok [(true, Some 2); (true, Some 5); (true, Some 8); (true, Some 11);
        (true, Some 8); (true, Some 5); (true, Some 2); (true, Some 4);
        (true, Some 1); (true, Some 3); (true, Some 7); (false, Some 7); (true, None)].
Proof. vm_compute. reflexivity. Qed.

(** test_split_join, src/tree_cursor.rs:515-558 *)
Example t_split_join :
  (do ' (_, c) <- crun (c_from ex_tree) [L];
   let '(lc, t, rc) := c_split c in
   do ' (ul, lc') <- up lc;
   do ' (ur, rc') <- up rc;
   do t <- unwrap "" t;
   do j <- c_join rc' (t_level t) (t_name t) (t_peek t) lc';
   do ' (l, j') <- crun j [L; U; U];
   Ok (c_peek lc, c_peek rc, ul, up_failed ur, c_peek rc', c_peek j, l))
  = Ok (Some 4, Some 5, UpFail, false, Some 1, Some 2,
        [(true, Some 7); (true, Some 2); (true, Some 3)]).
Proof. vm_compute. reflexivity. Qed.

(** test_iter_r, src/tree_cursor.rs:560-590 *)
Example t_iter_r :
  (do ' (_, c) <- crun (c_from ex_tree) [L;R;L;R];
   do ' (_, t, it) <- into_iters c;
   do v <- fold_out it [] (fun a e => a ++ [e]);
   Ok (option_map t_peek t, v))
  = Ok (Some 11, [5;9;1;6;3;7]).
Proof. vm_compute. reflexivity. Qed.

(** ** src/level_tree.rs tests (sum by fold_up, map) *)
Example t_tree_fold_up :
  t_fold_up (fun l c r => Ok (match l with None => 0 | Some x => x end + c
                              + match r with None => 0 | Some x => x end)) ex_tree = Ok 66.
Proof. vm_compute. reflexivity. Qed.

(** test_fold_up and test_map as written, src/level_tree.rs:260-333 *)
Definition opt_tree : tree (option nat) :=
  Node 5 (num 5) None
    (Some (Node 3 (num 3) None
       (Some (Node 0 None (Some 1) None None))
       (Some (Node 2 (num 2) None
          (Some (Node 1 (num 1) None
             (Some (Node 0 None (Some 2) None None))
             (Some (Node 0 None (Some 3) None None))))
          (Some (Node 0 None (Some 4) None None))))))
    (Some (Node 4 (num 4) None
       (Some (Node 0 None (Some 5) None None))
       (Some (Node 0 None (Some 6) None None)))).
Definition or0 (o : option nat) : nat := match o with Some x => x | None => 0 end.
Definition opt_sum : tree (option nat) -> res nat := t_fold_up (fun l c r => Ok (or0 l + or0 c + or0 r)).
Example t_opt_fold_up :
  opt_sum opt_tree = Ok 21 /\
  t_fold_up (fun l c r => match c with
    | None => do x <- unwrap "" l; do y <- unwrap "" r; Ok (Nat.max x y + 1)
    | Some _ => Ok 1 end) opt_tree = Ok 5 /\
  t_fold_up (fun l c r => match c with
    | None => do x <- unwrap "" l; do y <- unwrap "" r; Ok (implb y x)
    | Some _ => Ok true end) opt_tree = Ok true.
Proof. repeat split; vm_compute; reflexivity. Qed.
Example t_opt_map :
  (do t <- t_map (fun d _ _ _ _ => Ok (option_map S d)) opt_tree;
   do a <- unwrap "" (t_left t); do b <- unwrap "" (t_right a); do c <- unwrap "" (t_left b);
   do d <- unwrap "" (t_right c); do s <- opt_sum t; Ok (t_peek d, s)) = Ok (Some 4, 27).
Proof. vm_compute. reflexivity. Qed.

(** ** src/raz.rs tests *)
Definition ex_raz_tree : res (raz_tree nat count) :=
  do a <- leaf [1;2] None; do b <- leaf [3;4] None; do c <- leaf [5;6] None;
  do d <- leaf [7;8] None; do e <- leaf [9;10] None; do f <- leaf [11;12] None;
  do one <- bin b 1 (num 1) c;
  do two <- bin one 2 (num 2) d;
  do three <- bin a 3 (num 3) two;
  do four <- bin e 4 (num 4) f;
  do five <- bin three 5 (num 5) four;
  mk_raz_tree (Some five).

Inductive rop := PuL (n : nat) | PuR (n : nat) | PoL | PoR | PeL | PeR
  | ArL (l : N) (k : N) | ArR (l : N) (k : N) | Refocus (i : N).
Fixpoint rrun (z : raz nat count) (ops : list rop) : res (list (option nat) * raz nat count) :=
  match ops with
  | [] => Ok ([], z)
  | o :: ops =>
      match o with
      | PuL n => rrun (snd (push_left z n)) ops
      | PuR n => rrun (snd (push_right z n)) ops
      | ArL l k => rrun (archive_left z l (num k)) ops
      | ArR l k => rrun (archive_right z l (num k)) ops
      | PoL => do ' (e, z) <- pop_left z; do ' (l, z) <- rrun z ops; Ok (e :: l, z)
      | PoR => do ' (e, z) <- pop_right z; do ' (l, z) <- rrun z ops; Ok (e :: l, z)
      | PeL => do e <- peek_left z; do ' (l, z) <- rrun z ops; Ok (e :: l, z)
      | PeR => do e <- peek_right z; do ' (l, z) <- rrun z ops; Ok (e :: l, z)
      | Refocus i =>
          do t <- unfocus z;
          do o <- rt_focus t i;
          do z <- unwrap "focus" o;
          rrun z ops
      end
  end.
Definition obs (z : raz nat count) ops := do ' (l, _) <- rrun z ops; Ok l.

(** test_push_pop *)
Example t_push_pop :
  obs raz_new [PuL 5; PuL 4; PuR 8; PoL; PoR; PoL; PoR] = Ok [Some 4; Some 8; Some 5; None].
Proof. vm_compute. reflexivity. Qed.

(** test_tree_focus *)
Example t_tree_focus :
  (do t <- ex_raz_tree; do o <- rt_focus t 5%N; do z <- unwrap "" o;
   obs z [PoL; PoR; PoR; PoR; PoR; PoR; PoR; PoR; PoR; PoL; PoL; PoL; PoL; PoL])
  = Ok [Some 5; Some 6; Some 7; Some 8; Some 9; Some 10; Some 11; Some 12; None;
        Some 4; Some 3; Some 2; Some 1; None].
Proof. vm_compute. reflexivity. Qed.

(** test_unfocus: builds the example tree by edits and reads it back *)
Definition build_ops : list rop :=
  [PuL 3; PuL 4; ArL 1 1; PuR 8; PuR 7; ArR 2 2; PuL 5; PuR 6; Refocus 0;
   PuL 1; PuL 2; ArL 3 3; Refocus 8; ArL 5 5; PuL 9; PuL 10; PuR 12; PuR 11; ArR 4 4].
Example t_unfocus :
  obs raz_new (build_ops ++ [Refocus 7; PoL; PoL; PoL; PoL; PoL; PoL; PoL; Refocus 5;
                             PoR; PoL; PoL; PoL; PoL; PoL; PoL])
  = Ok [Some 7; Some 6; Some 5; Some 4; Some 3; Some 2; Some 1;
        None; Some 12; Some 11; Some 10; Some 9; Some 8; None].
Proof. vm_compute. reflexivity. Qed.

Definition built : res (raz_tree nat count) := do ' (_, z) <- rrun raz_new build_ops; unfocus z.

(** test_fold_lr_meta (second half): order of elements and archive points *)
Example t_fold_lr_meta :
  (do t <- built;
   Ok (rt_fold_lr_meta t [] (fun a e => a ++ [e]) (fun a '(l, _) => a ++ [100 * N.to_nat l])))
  = Ok [1;2;300;3;4;100;5;6;200;7;8;500;9;10;400;11;12].
Proof. vm_compute. reflexivity. Qed.

(** test_fold_up, test_map *)
Example t_fold_up :
  (do t <- ex_raz_tree; do s <- rt_fold_up t (fun e => e) Nat.add;
   do t' <- rt_map (N := count) S t; do s' <- rt_fold_up t' (fun e => e) Nat.add;
   Ok (rt_meta t, s, rt_meta t', s')) = Ok (Count 12, Some 78, Count 12, Some 90).
Proof. vm_compute. reflexivity. Qed.

(** The other folds of test_fold_up, src/raz.rs:995-1009; even is [true] *)
Example t_fold_up_more :
  (do t <- ex_raz_tree; do m <- rt_fold_up t (fun e => e) Nat.max;
   do eo <- rt_fold_up t Nat.even Bool.eqb; Ok (m, eo)) = Ok (Some 12, Some true).
Proof. vm_compute. reflexivity. Qed.

(** The structure check of test_map, src/raz.rs:1021-1040 *)
Example t_map_structure :
  (do t <- ex_raz_tree; do t' <- rt_map (N := count) S t; do tr <- unwrap "" (rt_tree t');
   let (a, c) := down_left (c_from tr) in let (b, c) := down_left c in
   let x := c_peek c in
   do ' (u, c) <- up c;
   let (d, c) := down_right c in let (e, c) := down_left c in let (f, c) := down_left c in
   Ok (a, b, x, up_failed u, (d, e, f), c_peek c))
  = Ok (true, true, Some (Leaf [2; 3]), false, (true, true, true), Some (Leaf [4; 5])).
Proof. vm_compute. reflexivity. Qed.

(** test_from_tail_stack, test_from_head_stack: same tree as the example *)
Definition tail_stack : astack nat level :=
  let p s a b l := snd (as_archive (as_push (as_push s a) b) (num l) l) in
  as_push (as_push (p (p (p (p (p as_new 1 2 3%N) 3 4 1%N) 5 6 2%N) 7 8 5%N) 9 10 4%N) 11) 12.
Definition head_stack : astack nat level :=
  let p s a b l := snd (as_archive (as_push (as_push s a) b) (num l) l) in
  as_push (as_push (p (p (p (p (p as_new 12 11 4%N) 10 9 5%N) 8 7 2%N) 6 5 1%N) 4 3 3%N) 2) 1.
Example t_from_tail : from_at_tail tail_stack = ex_raz_tree.
Proof. vm_compute. reflexivity. Qed.
Example t_from_head : from_at_head head_stack = ex_raz_tree.
Proof. vm_compute. reflexivity. Qed.

(** test_peek_pop *)
Example t_peek_pop :
  (do t <- ex_raz_tree; do o <- rt_focus t 6%N; do z <- unwrap "" o;
   obs z [PeL; PoL; PeL; PoL; PeL; PoL; PeR; PoR; PeR; PoR; PeR; PoR])
  = Ok [Some 6; Some 6; Some 5; Some 5; Some 4; Some 4;
        Some 7; Some 7; Some 8; Some 8; Some 9; Some 9].
Proof. vm_compute. reflexivity. Qed.

(** test_name_indexes (smaller): focusing on the name of an archive point *)
Fixpoint name_build (n : nat) (z : raz nat names) : raz nat names :=
  match n with
  | O => z
  | S n' => let z := name_build n' z in
            archive_left (snd (push_left z n)) (1 + N.of_nat (Nat.modulo n 3)) (num (N.of_nat n))
  end.
Example t_name_index :
  (do t <- unfocus (name_build 12 raz_new);
   do o <- rt_focus t (PCenter (NPair (NNum 7) (NStr "tree")));
   do z <- unwrap "" o; do e <- peek_left z; do e' <- peek_right z; Ok (e, e')) = Ok (Some 7, Some 8).
Proof. vm_compute. reflexivity. Qed.

(** ** skiplist_tiny, src/skiplist.rs:347-373, for hashes that differ and that collide *)
Definition tiny (hash : N -> N) : res (list (option N)) :=
  let put t k := sk_put N.eqb hash true t k k in
  do c <- put (sk_emp 8 NUnit) 1%N; do c <- put c 2%N; do c <- put c 3%N; do c <- put c 4%N;
  let c := sk_archive c (NNum 4) in
  do c <- put c 5%N; do c <- put c 6%N;
  do g0 <- sk_get N.eqb hash true c 0%N; do g1 <- sk_get N.eqb hash true c 1%N;
  do g2 <- sk_get N.eqb hash true c 2%N; do g3 <- sk_get N.eqb hash true c 3%N;
  do g4 <- sk_get N.eqb hash true c 4%N; do g5 <- sk_get N.eqb hash true c 5%N;
  do g6 <- sk_get N.eqb hash true c 6%N; Ok [g0; g1; g2; g3; g4; g5; g6].
Example t_skiplist_tiny :
  tiny (fun k => k) = Ok [None; Some 1; Some 2; Some 3; Some 4; Some 5; Some 6]%N /\
  tiny (fun k => 7)%N = Ok [None; Some 1; Some 2; Some 3; Some 4; Some 5; Some 6]%N.
Proof. split; vm_compute; reflexivity. Qed.
