(** * The cursor moves made by the operations of a Raz.

    Each function is the model function of the same name (without the [w_]) from
    TreeCursorModel.v, RazModel.v or RazScripts.v, counting its calls of [up],
    [down_left_force] and [down_right_force] (src/tree_cursor.rs:305-383), including the
    calls that fail. Nothing else is counted: peeks, stack operations and rebuilding
    are done a bounded number of times between two moves or per archive point. *)

From Verif Require Import Base SpecRaz StackModel AStackModel LevelTreeModel TreeCursorModel RazMetaModel
  RazModel RazScripts.

(** A result with the number of moves. *)
Definition work (A : Type) : Type := res (nat * A).
Definition free {A} (m : res A) : work A := do a <- m; Ok (0, a).
Definition move {A} (m : res A) : work A := do a <- m; Ok (1, a).
Definition wbind {A B} (m : work A) (k : A -> work B) : work B :=
  do ' (n, a) <- m; do ' (n', b) <- k a; Ok (n + n', b).
Notation "'wdo' x <- m ; k" := (wbind m (fun x => k))
  (at level 200, x name, m at level 100, k at level 200).
Notation "'wdo' ' p <- m ; k" := (wbind m (fun p => k))
  (at level 200, p pattern, m at level 100, k at level 200).
Definition wret {A} (a : A) : work A := Ok (0, a).
Fixpoint wloop {S R} (fuel : nat) (step : S -> work (S + R)) (s : S) : work R :=
  match fuel with
  | O => Fuel
  | Datatypes.S n =>
      wdo x <- step s;
      match x with
      | inl s' => wloop n step s'
      | inr r => wret r
      end
  end.

(** The same without the number. *)
Definition forget {A} (m : work A) : res A := do ' (_, a) <- m; Ok a.

Section Cursor.
Context {A : Type} {TU : TreeUpdate A}.
Implicit Types (c : cursor A).

(** [up], [down_left_force], [down_right_force], src/tree_cursor.rs:350-383, 305-322,
    326-343; [down_left] and [down_right] call them. *)
Definition w_up c : work (up_result * cursor A) := move (up c).
Definition w_down_left_force f c : work (bool * cursor A) := move (Ok (down_left_force f c)).
Definition w_down_right_force f c : work (bool * cursor A) := move (Ok (down_right_force f c)).
Definition w_down_left c : work (bool * cursor A) := w_down_left_force ForceNo c.
Definition w_down_right c : work (bool * cursor A) := w_down_right_force ForceNo c.

(** [assert!(c.up() != Fail)] in [join], src/tree_cursor.rs:215-233. *)
Definition w_up_or_panic c : work (cursor A) :=
  wdo ' (u, c') <- w_up c;
  wdo _ <- free (assert "join: up failed" (negb (up_failed u)));
  wret c'.

(** [while c.down_left() {}] and [while c.down_right() {}], src/raz.rs:347, 393, 576, 590,
    615, 632. *)
Definition w_down_left_all c : work (cursor A) :=
  wloop (S (ot_size (c_tree c)))
        (fun c => wdo ' (b, c') <- w_down_left c; wret (if b then inl c' else inr c')) c.
Definition w_down_right_all c : work (cursor A) :=
  wloop (S (ot_size (c_tree c)))
        (fun c => wdo ' (b, c') <- w_down_right c; wret (if b then inl c' else inr c')) c.

(** [while c.up() != Fail {}], src/raz.rs:499 and 527. *)
Definition w_up_all c : work (cursor A) :=
  wloop (S (forest_len c))
        (fun c => wdo ' (u, c') <- w_up c; wret (if up_failed u then inr c' else inl c')) c.

(** The loops of [join], src/tree_cursor.rs:215-233: to a cursor with nothing on its other
    side, up to the level and down to it, for the left and the right cursor. *)
Definition w_clear_right c : work (cursor A) :=
  wloop (S (forest_len c))
        (fun c => match r_forest c with
                  | [] => wret (inr c)
                  | _ => wdo c' <- w_up_or_panic c; wret (inl c')
                  end) c.
Definition w_clear_left c : work (cursor A) :=
  wloop (S (forest_len c))
        (fun c => match l_forest c with
                  | [] => wret (inr c)
                  | _ => wdo c' <- w_up_or_panic c; wret (inl c')
                  end) c.
Definition w_left_up (lev : level) c : work (cursor A) :=
  wloop (S (forest_len c))
        (fun c => match up_left_level c with
                  | None => wret (inr c)
                  | Some h => if (lev <=? h)%N then wret (inr c)
                              else wdo c' <- w_up_or_panic c; wret (inl c')
                  end) c.
Definition w_left_down (lev : level) c : work (cursor A) :=
  wloop (S (ot_size (c_tree c)))
        (fun c => match peek_level c with
                  | None => wret (inr c)
                  | Some h => if (h <? lev)%N then wret (inr c)
                              else wdo ' (b, c') <- w_down_right_force ForceYes c;
                                   wdo _ <- free (assert "join: down_right" b); wret (inl c')
                  end) c.
Definition w_right_up (lev : level) c : work (cursor A) :=
  wloop (S (forest_len c))
        (fun c => match up_right_level c with
                  | None => wret (inr c)
                  | Some h => if (lev <? h)%N then wret (inr c)
                              else wdo c' <- w_up_or_panic c; wret (inl c')
                  end) c.
Definition w_right_down (lev : level) c : work (cursor A) :=
  wloop (S (ot_size (c_tree c)))
        (fun c => match peek_level c with
                  | None => wret (inr c)
                  | Some h => if (h <=? lev)%N then wret (inr c)
                              else wdo ' (b, c') <- w_down_left_force ForceYes c;
                                   wdo _ <- free (assert "join: down_left" b); wret (inl c')
                  end) c.

(** [join], src/tree_cursor.rs:213-249. *)
Definition w_join (lc : cursor A) (lev : level) (nm : option name) (data : A)
    (rc : cursor A) : work (cursor A) :=
  wdo lc <- w_clear_right lc;
  wdo rc <- w_clear_left rc;
  wdo lc <- w_left_up lev lc;
  wdo lc <- w_left_down lev lc;
  wdo rc <- w_right_up lev rc;
  wdo rc <- w_right_down lev rc;
  wdo data' <- free (rebuild (peek_op (c_tree lc)) data lev nm (peek_op (c_tree rc)));
  let t := tree_new lev nm data' (c_tree lc) (c_tree rc) in
  wdo _ <- free (assert "join: tree.is_some()" (match t with Some _ => true | None => false end));
  wret (Cursor true (l_forest lc) t (r_forest rc)).
End Cursor.

Section Raz.
Context {E M : Type} {RM : RazMeta E M}.
Notation rcursor := (cursor (tree_data E M)).
Notation raz := (raz E M).
Notation raz_tree := (raz_tree E M).

(** The search loop of [focus], src/raz.rs:335-352. *)
Definition w_focus_step (s : rcursor * Index) : work ((rcursor * Index) + option (rcursor * Index)) :=
  let (c, index) := s in
  wdo d <- free (unwrap "focus: peek" (c_peek c));
  match d with
  | Branch l r =>
      wdo nav <- free (navigate l r index);
      match nav with
      | NavLeft i =>
          wdo ' (b, c') <- w_down_left c;
          wdo _ <- free (assert "focus: down_left" b); wret (inl (c', i))
      | NavRight i =>
          wdo ' (b, c') <- w_down_right c;
          wdo _ <- free (assert "focus: down_right" b); wret (inl (c', i))
      | NavHere =>
          wdo ' (b, c') <- w_down_left c;
          wdo _ <- free (assert "focus: down_left" b);
          wdo c'' <- w_down_right_all c';
          wret (inl (c'', idx_last))
      | NavNowhere => wret (inr None)
      end
  | _ => wret (inr (Some (c, index)))
  end.

(** [focus], src/raz.rs:321-377. *)
Definition w_focus (t : raz_tree) (index : Index) : work (option raz) :=
  match rt_tree t with
  | None => wret (Some raz_new)
  | Some tr =>
      wdo found <- wloop (S (t_size tr)) w_focus_step (c_from tr, index);
      match found with
      | None => wret None
      | Some (c, index) =>
          let '(l_cursor, t, r_cursor) := c_split c in
          match t with
          | Some t =>
              match t_peek t with
              | Leaf v =>
                  wdo ' (l_slice, r_slice) <- free (split_vec v index);
                  wret (Some (Raz l_cursor (as_extend as_new l_slice)
                                (as_extend_rev as_new r_slice) r_cursor))
              | _ => Panic "focus: unreachable"
              end
          | None => Panic "focus: unreachable"
          end
      end
  end.

(** [focus_left], src/raz.rs:380-416. *)
Definition w_focus_left (t : raz_tree) : work raz :=
  match rt_tree t with
  | None => wret raz_new
  | Some tr =>
      wdo c <- w_down_left_all (c_from tr);
      let '(l_cursor, t, r_cursor) := c_split c in
      match t with
      | Some t =>
          match t_peek t with
          | Leaf v => wret (Raz l_cursor as_new (as_extend_rev as_new v) r_cursor)
          | _ => Panic "focus_left: unreachable"
          end
      | None => Panic "focus_left: unreachable"
      end
  end.

(** [peek_left], [peek_right], src/raz.rs:571-597. *)
Definition w_peek_left (z : raz) : work (option E) :=
  if as_is_empty (z_l_stack z) then
    wdo ' (u, c) <- w_up (z_l_forest z);
    if up_failed u then wret None
    else
      wdo ' (_, c) <- w_down_left c;
      wdo c <- w_down_right_all c;
      match c_peek c with
      | Some (Leaf v) => wret (vec_last v)
      | _ => Panic "peek_left: no left tree leaf"
      end
  else free (as_peek (z_l_stack z)).
Definition w_peek_right (z : raz) : work (option E) :=
  if as_is_empty (z_r_stack z) then
    wdo ' (u, c) <- w_up (z_r_forest z);
    if up_failed u then wret None
    else
      wdo ' (_, c) <- w_down_right c;
      wdo c <- w_down_left_all c;
      match c_peek c with
      | Some (Leaf v) => wret (hd_error v)
      | _ => Panic "peek_right: no right tree leaf"
      end
  else free (as_peek (z_r_stack z)).

(** [pop_left], [pop_right], src/raz.rs:611-640. *)
Definition w_pop_left (z : raz) : work (option E * raz) :=
  if as_is_empty (z_l_stack z) then
    wdo ' (u, c) <- w_up (z_l_forest z);
    if up_failed u then wret (None, Raz c (z_l_stack z) (z_r_stack z) (z_r_forest z))
    else
      wdo ' (_, c) <- w_down_left_force ForceDiscard c;
      wdo c <- w_down_right_all c;
      match c_peek c with
      | Some (Leaf v) =>
          wdo ' (e, s) <- free (as_pop (as_extend (z_l_stack z) v));
          wret (e, Raz c s (z_r_stack z) (z_r_forest z))
      | _ => Panic "pop_left: no left tree leaf"
      end
  else
    wdo ' (e, s) <- free (as_pop (z_l_stack z));
    wret (e, Raz (z_l_forest z) s (z_r_stack z) (z_r_forest z)).
Definition w_pop_right (z : raz) : work (option E * raz) :=
  if as_is_empty (z_r_stack z) then
    wdo ' (u, c) <- w_up (z_r_forest z);
    if up_failed u then wret (None, Raz (z_l_forest z) (z_l_stack z) (z_r_stack z) c)
    else
      wdo ' (_, c) <- w_down_right_force ForceDiscard c;
      wdo c <- w_down_left_all c;
      match c_peek c with
      | Some (Leaf v) =>
          wdo ' (e, s) <- free (as_pop (as_extend_rev (z_r_stack z) v));
          wret (e, Raz (z_l_forest z) (z_l_stack z) s c)
      | _ => Panic "pop_right: no right tree leaf"
      end
  else
    wdo ' (e, s) <- free (as_pop (z_r_stack z));
    wret (e, Raz (z_l_forest z) (z_l_stack z) s (z_r_forest z)).

(** The loops of step 2 of [unfocus], src/raz.rs:482-498. *)
Definition w_unfocus_left_loop (s : astack E level) (lev : option level) (nm : option name)
    (c : rcursor) : work rcursor :=
  wloop (S (S (archives s)))
    (fun '(s, lev, nm, next_nm, c) =>
       wdo ' (o, s') <- free (as_next_archive s);
       match o with
       | None => wret (inr c)
       | Some (l_vec, next_lev) =>
           wdo lt <- free (unwrap "unfocus: leaf" (tree_new 0%N None (Leaf l_vec) None None));
           wdo lv <- free (unwrap "unfocus: l_lev" lev);
           wdo c' <- w_join (c_from lt) lv nm Dummy c;
           wret (inl (s', next_lev, next_nm, tree_name (as_name s'), c'))
       end)
    (s, lev, nm, tree_name (as_name s), c).
Definition w_unfocus_right_loop (s : astack E level) (lev : option level) (nm : option name)
    (c : rcursor) : work rcursor :=
  wloop (S (S (archives s)))
    (fun '(s, lev, nm, next_nm, c) =>
       wdo ' (o, s') <- free (as_next_archive s);
       match o with
       | None => wret (inr c)
       | Some (r_vec, next_lev) =>
           wdo rt <- free (unwrap "unfocus: leaf" (tree_new 0%N None (Leaf (rev r_vec)) None None));
           wdo lv <- free (unwrap "unfocus: r_lev" lev);
           wdo c' <- w_join c lv nm Dummy (c_from rt);
           wret (inl (s', next_lev, next_nm, tree_name (as_name s'), c'))
       end)
    (s, lev, nm, tree_name (as_name s), c).

(** [unfocus], src/raz.rs:443-530. *)
Definition w_unfocus (z : raz) : work raz_tree :=
  (* step 1 *)
  wdo ' (lnm, llev, lvec, ls) <- free (unfocus_side (z_l_stack z));
  wdo ' (rnm, rlev, rvec, rs) <- free (unfocus_side (z_r_stack z));
  wdo ' (vec, lnm, llev, ls, rnm, rlev, rs) <- free
    match as_is_empty ls, lvec, rvec, as_is_empty rs with
    | _, Some v, None, _ => Ok (Some v, lnm, llev, ls, rnm, rlev, rs)
    | _, None, Some v, _ => Ok (Some (rev v), lnm, llev, ls, rnm, rlev, rs)
    | _, Some lv, Some rv, _ => Ok (Some (lv ++ rev rv), lnm, llev, ls, rnm, rlev, rs)
    | false, None, None, _ =>
        let lnm := tree_name (as_name ls) in
        do ' (o, ls) <- as_next_archive ls;
        do ' (v, lev) <- unwrap "unfocus: next_archive" o;
        Ok (Some v, lnm, lev, ls, rnm, rlev, rs)
    | true, None, None, false =>
        let rnm := tree_name (as_name rs) in
        do ' (o, rs) <- as_next_archive rs;
        do ' (v, lev) <- unwrap "unfocus: next_archive" o;
        Ok (Some (rev v), lnm, llev, ls, rnm, lev, rs)
    | true, None, None, true => Ok (None, lnm, llev, ls, rnm, rlev, rs)
    end;
  (* step 2 *)
  wdo ' (tr, lf, rf) <-
    match vec with
    | Some v =>
        wdo t0 <- free (unwrap "unfocus: leaf" (tree_new 0%N None (Leaf v) None None));
        wdo c <- w_unfocus_left_loop ls llev lnm (c_from t0);
        wdo c <- w_unfocus_right_loop rs rlev rnm c;
        wdo c <- w_up_all c;
        wdo t <- free (unwrap "unfocus: at_tree" (at_tree c));
        wret (Some t, z_l_forest z, z_r_forest z)
    | None =>
        wdo ' (u, lf) <- w_up (z_l_forest z);
        if up_failed u then
          wdo ' (u, rf) <- w_up (z_r_forest z);
          if up_failed u then wret (None, lf, rf)
          else
            wdo t <- free (unwrap "unfocus: right_tree" (right_tree rf));
            wret (Some t, lf, rf)
        else
          wdo t <- free (unwrap "unfocus: left_tree" (left_tree lf));
          wret (Some t, lf, z_r_forest z)
    end;
  match tr with
  | None => free (mk_raz_tree None)
  | Some tr =>
      (* step 3 *)
      let jc := c_from tr in
      wdo ' (u, lf) <- w_up lf;
      wdo jc <-
        (if up_failed u then wret jc
         else
           wdo lev <- free (unwrap "unfocus: peek_level" (peek_level lf));
           let nm := peek_name lf in
           wdo ' (_, lf) <- w_down_left_force ForceDiscard lf;
           w_join lf lev nm Dummy jc);
      wdo ' (u, rf) <- w_up rf;
      wdo jc <-
        (if up_failed u then wret jc
         else
           wdo lev <- free (unwrap "unfocus: peek_level" (peek_level rf));
           let nm := peek_name rf in
           wdo ' (_, rf) <- w_down_right_force ForceDiscard rf;
           w_join jc lev nm Dummy rf);
      (* step 4 *)
      wdo jc <- w_up_all jc;
      free (mk_raz_tree (at_tree jc))
  end.

(** Scripts: [zstep] and [zrun] of RazScripts.v; pushing and archiving make no moves. *)
Definition w_step (z : raz) (o : zop E) : work (zout E * raz) :=
  match o with
  | OPopL => wdo ' (x, z') <- w_pop_left z; wret (OutElt x, z')
  | OPopR => wdo ' (x, z') <- w_pop_right z; wret (OutElt x, z')
  | OPeekL => wdo x <- w_peek_left z; wret (OutElt x, z)
  | OPeekR => wdo x <- w_peek_right z; wret (OutElt x, z)
  | _ => free (zstep z o)
  end.
Fixpoint w_run (z : raz) (ops : list (zop E)) : work (list (zout E) * raz) :=
  match ops with
  | [] => wret ([], z)
  | o :: r =>
      wdo ' (x, z1) <- w_step z o;
      wdo ' (xs, z2) <- w_run z1 r;
      wret (x :: xs, z2)
  end.
End Raz.
