(** * Model of src/tree_cursor.rs.

    The two forests are Rust [Vec]s used as stacks (push, pop, last): the model
    lists hold the end of the [Vec] first. *)

From Verif Require Import Base LevelTreeModel.

(** [TreeUpdate::rebuild], src/tree_cursor.rs:53-62. The implementation for the
    Raz data can reach an [unreachable!], hence [res]. *)
Class TreeUpdate (A : Type) : Type :=
  rebuild : option A -> A -> level -> option name -> option A -> res A.

(** [DeriveTreeUpdate], src/tree_cursor.rs:66-70: keep the old data. *)
Definition derive_tree_update (A : Type) : TreeUpdate A :=
  fun _l old _lev _nm _r => Ok old.

(** [Cursor], src/tree_cursor.rs:29-36. *)
Record cursor (A : Type) : Type := Cursor {
  dirty : bool;
  l_forest : list (bool * tree A);
  c_tree : option (tree A);
  r_forest : list (bool * tree A)
}.
Arguments Cursor {A} dirty l_forest c_tree r_forest.
Arguments dirty {A} c.
Arguments l_forest {A} c.
Arguments c_tree {A} c.
Arguments r_forest {A} c.

(** [Force], src/tree_cursor.rs:80-85. *)
Inductive force_kind := ForceNo | ForceYes | ForceDiscard.

(** [UpResult], src/tree_cursor.rs:94-99. *)
Inductive up_result := UpFail | UpLeft | UpRight.

Definition up_failed (u : up_result) : bool :=
  match u with UpFail => true | _ => false end.

Section Cursor.
Context {A : Type} {TU : TreeUpdate A}.
Implicit Types (c : cursor A).

(** [peek_op], src/tree_cursor.rs:101-106. *)
Definition peek_op (o : option (tree A)) : option A := option_map t_peek o.

(** [From<Tree>], src/tree_cursor.rs:110-120. *)
Definition c_from (t : tree A) : cursor A := Cursor false [] (Some t) [].

(** [Cursor::new] and [with_depth], src/tree_cursor.rs:125-141. *)
Definition c_new : cursor A := Cursor false [] None [].

(** [at_tree], [left_tree], [right_tree], src/tree_cursor.rs:254-263. *)
Definition at_tree c : option (tree A) := c_tree c.
Definition left_tree c : option (tree A) :=
  match c_tree c with None => None | Some t => t_left t end.
Definition right_tree c : option (tree A) :=
  match c_tree c with None => None | Some t => t_right t end.

(** [peek], [peek_level], [peek_name], src/tree_cursor.rs:266-282. *)
Definition c_peek c : option A := peek_op (c_tree c).
Definition peek_level c : option level := option_map t_level (c_tree c).
Definition peek_name c : option name :=
  match c_tree c with None => None | Some t => t_name t end.

(** [up_left_level], [up_right_level], src/tree_cursor.rs:287-301. *)
Definition up_left_level c : option level :=
  match l_forest c with [] => None | (_, t) :: _ => Some (t_level t) end.
Definition up_right_level c : option level :=
  match r_forest c with [] => None | (_, t) :: _ => Some (t_level t) end.

(** [split], src/tree_cursor.rs:146-166. *)
Definition c_split c : cursor A * option (tree A) * cursor A :=
  (Cursor true (l_forest c) (left_tree c) [],
   c_tree c,
   Cursor true [] (right_tree c) (r_forest c)).

(** [down_left_force], src/tree_cursor.rs:305-320. *)
Definition down_left_force (f : force_kind) c : bool * cursor A :=
  match c_tree c with
  | None => (false, c)
  | Some t =>
      match t_left t, f with
      | None, ForceNo => (false, c)
      | lt, ForceDiscard => (true, Cursor true (l_forest c) lt (r_forest c))
      | lt, _ => (true, Cursor false (l_forest c) lt ((dirty c, t) :: r_forest c))
      end
  end.

(** [down_left], src/tree_cursor.rs:322. *)
Definition down_left c : bool * cursor A := down_left_force ForceNo c.

(** [down_right_force], src/tree_cursor.rs:326-341. *)
Definition down_right_force (f : force_kind) c : bool * cursor A :=
  match c_tree c with
  | None => (false, c)
  | Some t =>
      match t_right t, f with
      | None, ForceNo => (false, c)
      | rt, ForceDiscard => (true, Cursor true (l_forest c) rt (r_forest c))
      | rt, _ => (true, Cursor false ((dirty c, t) :: l_forest c) rt (r_forest c))
      end
  end.

(** [down_right], src/tree_cursor.rs:343. *)
Definition down_right c : bool * cursor A := down_right_force ForceNo c.

(** The choice of direction shared by [up] (351-356) and [up_discard] (388-393);
    [None] is the [(None, None)] case. *)
Definition up_to_left c : option bool :=
  match l_forest c, r_forest c with
  | [], [] => None
  | _ :: _, [] => Some true
  | (_, lt) :: _, (_, rt) :: _ => Some (t_level lt <? t_level rt)%N
  | _, _ => Some false
  end.

(** [up], src/tree_cursor.rs:350-383. *)
Definition up c : res (up_result * cursor A) :=
  match up_to_left c with
  | None => Ok (UpFail, c)
  | Some true =>
      match l_forest c with
      | (d, ut) :: lf =>
          if dirty c then
            let l_branch := t_left ut in
            do data <- rebuild (peek_op l_branch) (t_peek ut) (t_level ut) (t_name ut)
                         (peek_op (c_tree c));
            Ok (UpLeft, Cursor true lf
                  (tree_new (t_level ut) (t_name ut) data l_branch (c_tree c)) (r_forest c))
          else Ok (UpLeft, Cursor d lf (Some ut) (r_forest c))
      | [] => Panic "up: empty left forest item"
      end
  | Some false =>
      match r_forest c with
      | (d, ut) :: rf =>
          if dirty c then
            let r_branch := t_right ut in
            do data <- rebuild (peek_op (c_tree c)) (t_peek ut) (t_level ut) (t_name ut)
                         (peek_op r_branch);
            Ok (UpRight, Cursor true (l_forest c)
                  (tree_new (t_level ut) (t_name ut) data (c_tree c) r_branch) rf)
          else Ok (UpRight, Cursor d (l_forest c) (Some ut) rf)
      | [] => Panic "up: empty right forest item"
      end
  end.

(** [up_discard], src/tree_cursor.rs:387-406. *)
Definition up_discard c : res (up_result * cursor A) :=
  match up_to_left c with
  | None => Ok (UpFail, c)
  | Some true =>
      match l_forest c with
      | (d, ut) :: lf => Ok (UpLeft, Cursor d lf (Some ut) (r_forest c))
      | [] => Panic "up: empty left forest item"
      end
  | Some false =>
      match r_forest c with
      | (d, ut) :: rf => Ok (UpRight, Cursor d (l_forest c) (Some ut) rf)
      | [] => Panic "up: empty right forest item"
      end
  end.

(** ** Loop fuel. Any bound at least the number of iterations will do; the proofs
    show that these are enough. *)
Fixpoint t_size (t : tree A) : nat :=
  match t with
  | Node _ _ _ l r =>
      S ((match l with None => 0 | Some t1 => t_size t1 end) +
         (match r with None => 0 | Some t2 => t_size t2 end))
  end.
Definition ot_size (o : option (tree A)) : nat :=
  match o with None => 0 | Some t => t_size t end.
Definition forest_len c : nat := length (l_forest c) + length (r_forest c).

(** [assert!(c.up() != Fail)], used by [join]. *)
Definition up_or_panic c : res (cursor A) :=
  do ' (u, c') <- up c;
  do _ <- assert "join: up failed" (negb (up_failed u));
  Ok c'.

(** [while c.down_left() {}] and [while c.down_right() {}]. *)
Definition down_left_all c : res (cursor A) :=
  loop (S (ot_size (c_tree c)))
       (fun c => match down_left c with
                 | (true, c') => Ok (inl c')
                 | (false, c') => Ok (inr c')
                 end) c.
Definition down_right_all c : res (cursor A) :=
  loop (S (ot_size (c_tree c)))
       (fun c => match down_right c with
                 | (true, c') => Ok (inl c')
                 | (false, c') => Ok (inr c')
                 end) c.

(** [while c.up() != Fail {}]. *)
Definition up_all c : res (cursor A) :=
  loop (S (forest_len c))
       (fun c => do ' (u, c') <- up c;
                 Ok (if up_failed u then inr c' else inl c')) c.

(** [join] step 1, src/tree_cursor.rs:215 and 216. *)
Definition join_clear_right c : res (cursor A) :=
  loop (S (forest_len c))
       (fun c => match r_forest c with
                 | [] => Ok (inr c)
                 | _ => do c' <- up_or_panic c; Ok (inl c')
                 end) c.
Definition join_clear_left c : res (cursor A) :=
  loop (S (forest_len c))
       (fun c => match l_forest c with
                 | [] => Ok (inr c)
                 | _ => do c' <- up_or_panic c; Ok (inl c')
                 end) c.

(** [join] step 2, src/tree_cursor.rs:218-221, 222-225, 226-229, 230-233. *)
Definition join_left_up (lev : level) c : res (cursor A) :=
  loop (S (forest_len c))
       (fun c => match up_left_level c with
                 | None => Ok (inr c)
                 | Some h => if (lev <=? h)%N then Ok (inr c)
                             else do c' <- up_or_panic c; Ok (inl c')
                 end) c.
Definition join_left_down (lev : level) c : res (cursor A) :=
  loop (S (ot_size (c_tree c)))
       (fun c => match peek_level c with
                 | None => Ok (inr c)
                 | Some h => if (h <? lev)%N then Ok (inr c)
                             else let (b, c') := down_right_force ForceYes c in
                                  do _ <- assert "join: down_right" b; Ok (inl c')
                 end) c.
Definition join_right_up (lev : level) c : res (cursor A) :=
  loop (S (forest_len c))
       (fun c => match up_right_level c with
                 | None => Ok (inr c)
                 | Some h => if (lev <? h)%N then Ok (inr c)
                             else do c' <- up_or_panic c; Ok (inl c')
                 end) c.
Definition join_right_down (lev : level) c : res (cursor A) :=
  loop (S (ot_size (c_tree c)))
       (fun c => match peek_level c with
                 | None => Ok (inr c)
                 | Some h => if (h <=? lev)%N then Ok (inr c)
                             else let (b, c') := down_left_force ForceYes c in
                                  do _ <- assert "join: down_left" b; Ok (inl c')
                 end) c.

(** [join], src/tree_cursor.rs:213-249. *)
Definition c_join (lc : cursor A) (lev : level) (nm : option name) (data : A)
    (rc : cursor A) : res (cursor A) :=
  (* step 1 *)
  do lc <- join_clear_right lc;
  do rc <- join_clear_left rc;
  (* step 2 *)
  do lc <- join_left_up lev lc;
  do lc <- join_left_down lev lc;
  do rc <- join_right_up lev rc;
  do rc <- join_right_down lev rc;
  (* step 3 *)
  do data' <- rebuild (peek_op (c_tree lc)) data lev nm (peek_op (c_tree rc));
  let t := tree_new lev nm data' (c_tree lc) (c_tree rc) in
  do _ <- assert "join: tree.is_some()" (match t with Some _ => true | None => false end);
  (* step 4 *)
  Ok (Cursor true (l_forest lc) t (r_forest rc)).

(** [into_iters], src/tree_cursor.rs:176-207. Returns the two cursors wrapped by
    [IterL] and [IterR]. *)
Definition into_iters c : res (cursor A * option (tree A) * cursor A) :=
  let l_cursor := Cursor true (l_forest c) (left_tree c) [] in
  let r_cursor := Cursor true [] (right_tree c) (r_forest c) in
  do l_cursor <- match c_tree l_cursor with
                 | None => do ' (_, c') <- up_discard l_cursor; Ok c'
                 | Some _ => down_right_all l_cursor
                 end;
  do r_cursor <- match c_tree r_cursor with
                 | None => do ' (_, c') <- up_discard r_cursor; Ok c'
                 | Some _ => down_left_all r_cursor
                 end;
  Ok (l_cursor, c_tree c, r_cursor).

(** [IterR::next], src/tree_cursor.rs:442-458. *)
Definition iter_r_next c : res (option A * cursor A) :=
  let result := c_peek c in
  do c' <-
    match down_right c with
    | (true, c1) => down_left_all c1
    | (false, c1) =>
        loop (S (forest_len c1))
          (fun c => do ' (u, c') <- up_discard c;
                    Ok (match u with
                        | UpLeft => inl c'
                        | UpRight => inr c'
                        | UpFail => inr c_new
                        end)) c1
    end;
  Ok (result, c').

(** Upper bound for the number of nodes an iterator can still visit. *)
Definition iter_fuel c : nat :=
  S (ot_size (c_tree c)
     + list_sum (map (fun p => t_size (snd p)) (l_forest c))
     + list_sum (map (fun p => t_size (snd p)) (r_forest c))).

(** [IterR::fold_out], src/tree_cursor.rs:416-436; named and unnamed recursive
    calls coincide ([memo!] is a call). *)
Definition fold_out {R} (c : cursor A) (init : R) (bin : R -> A -> R) : res R :=
  loop (iter_fuel c)
    (fun '(c, a) =>
       do ' (o, c') <- iter_r_next c;
       match o with
       | None => Ok (inr a)
       | Some e => Ok (inl (c', bin a e))
       end) (c, init).

End Cursor.
