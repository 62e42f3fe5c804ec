(** * Model of the test harnesses eval/src/eval_iraz.rs, eval_raz_name_index.rs and
    eval_vec.rs. Timing is dropped: a [Duration::span(|| ..)] is its body.

    The two Raz harnesses have the same text except for the metadata type and the
    location of an edit, so they share the definitions below. *)

From Verif Require Import Base RazMetaModel RazModel LevelGenModel ExampleModel.

(** [usize] arithmetic of release builds; division and remainder panic on zero. *)
Definition usize_mul (a b : N) : N := ((a * b) mod usize_mod)%N.
Definition usize_sub (a b : N) : N := ((a + usize_mod - b) mod usize_mod)%N.
Definition usize_div (a b : N) : res N :=
  if (b =? 0)%N then Panic "attempt to divide by zero" else Ok (a / b)%N.
Definition usize_rem (a b : N) : res N :=
  if (b =? 0)%N then Panic "attempt to calculate the remainder with a divisor of zero" else Ok (a mod b)%N.

(** [for _ in 0..n { .. }] over a state. *)
Fixpoint times {S} (n : nat) (body : S -> res S) (s : S) : res S :=
  match n with
  | O => Ok s
  | Datatypes.S n' => do s1 <- body s; times n' body s1
  end.

(** [n] calls of a generator, collected: [gen_iter().take(n).collect()] and the loops
    that push onto a fresh vector. *)
Fixpoint draw {A S} (next : S -> A * S) (n : nat) (s : S) : list A * S :=
  match n with
  | O => ([], s)
  | Datatypes.S n' =>
      let (a, s1) := next s in
      let (l, s2) := draw next n' s1 in
      (a :: l, s2)
  end.

(** An iterator's [next] with [unwrap_or_else(||panic!(..))] or [expect]. *)
Definition next_or {A} (msg : string) (l : list A) : res (A * list A) :=
  match l with
  | [] => Panic msg
  | a :: r => Ok (a, r)
  end.

(** The coordinating generator [G: Rng], used for elements and for [gen::<usize>()]. *)
Class Coord (E G : Type) : Type := {
  gen_elt : G -> E * G;
  gen_usize : G -> N * G
}.
(** The generator [StdRng] of the levels, by its 64-bit words. *)
Class WordRng (S : Type) : Type := { next_word : S -> N * S }.

(** [gen_level], src/tree_cursor.rs:15 for [gen_branch_level], src/level_tree.rs:251-254. *)
Definition gen_level {S} {W : WordRng S} (s : S) : level * S :=
  let (w, s') := next_word s in (gen_branch_level w, s').

Section Harness.
Context {E M G S : Type} {RM : RazMeta E M} {CG : Coord E G} {WS : WordRng S}.

(** [EvalIRaz], eval/src/eval_iraz.rs:18-26; [EvalRazNameIndex],
    eval/src/eval_raz_name_index.rs:19-27. *)
Record eval_raz : Type := EvalRaz {
  ev_tree : option (raz_tree E M);
  ev_names : N;
  ev_coord : G;
  ev_counter : N;
  ev_datagauge : N;
  ev_namegauge : N
}.

(** [new], eval_iraz.rs:37-46, eval_raz_name_index.rs:30-39. *)
Definition ev_new (us ns : N) (coord : G) : eval_raz := EvalRaz None 0 coord 0 us ns.

(** [next_name], eval_iraz.rs:47-51, eval_raz_name_index.rs:40-44. *)
Definition ev_next_name (ev : eval_raz) : name * eval_raz :=
  (NNum (ev_names ev),
   EvalRaz (ev_tree ev) (usize_add (ev_names ev) 1) (ev_coord ev) (ev_counter ev)
     (ev_datagauge ev) (ev_namegauge ev)).

Definition ev_set_tree (ev : eval_raz) (t : raz_tree E M) : eval_raz :=
  EvalRaz (Some t) (ev_names ev) (ev_coord ev) (ev_counter ev) (ev_datagauge ev) (ev_namegauge ev).
Definition ev_set_coord (ev : eval_raz) (g : G) : eval_raz :=
  EvalRaz (ev_tree ev) (ev_names ev) g (ev_counter ev) (ev_datagauge ev) (ev_namegauge ev).

(** [inc_empty], eval_iraz.rs:57-63, eval_raz_name_index.rs:50-56. *)
Definition ev_inc_empty (us ns : N) (coord : G) : res eval_raz :=
  do t <- unfocus raz_new; Ok (ev_set_tree (ev_new us ns coord) t).

(** [inc_from] of a Raz, of a tree and of a stack, eval_iraz.rs:68-97,
    eval_raz_name_index.rs:61-90. *)
Definition ev_from_raz (z : raz E M) (us ns : N) (coord : G) : res eval_raz :=
  do t <- unfocus z; Ok (ev_set_tree (ev_new us ns coord) t).
Definition ev_from_tree (t : raz_tree E M) (us ns : N) (coord : G) : eval_raz :=
  ev_set_tree (ev_new us ns coord) t.
Definition ev_from_tail (s : AStackModel.astack E level) (us ns : N) (coord : G) : res eval_raz :=
  do t <- from_at_tail s; Ok (ev_set_tree (ev_new us ns coord) t).

(** The names of [inc_init]: [k] times [None], then a name. eval_iraz.rs:119-125. *)
Fixpoint init_names (n k : nat) (ev : eval_raz) : list (option name) * eval_raz :=
  match n with
  | O => ([], ev)
  | Datatypes.S n' =>
      let (nm, ev1) := ev_next_name ev in
      let (l, ev2) := init_names n' k ev1 in
      (repeat None k ++ Some nm :: l, ev2)
  end.

(** The Raz and what is left of the three iterators. *)
Definition init_state : Type := raz E M * list E * list level * list (option name).

(** eval_iraz.rs:135. *)
Definition init_push (st : init_state) : res init_state :=
  let '(z, data, levs, nms) := st in
  do ' (e, data) <- next_or "init" data;
  Ok (snd (push_left z e), data, levs, nms).
(** eval_iraz.rs:137. *)
Definition init_archive (st : init_state) : res init_state :=
  let '(z, data, levs, nms) := st in
  do ' (lev, levs) <- next_or "init" levs;
  do ' (nm, nms) <- next_or "init" nms;
  Ok (archive_left z lev nm, data, levs, nms).
(** eval_iraz.rs:145. *)
Definition init_archive_none (st : init_state) : res init_state :=
  let '(z, data, levs, nms) := st in
  do ' (lev, levs) <- next_or "init" levs;
  Ok (archive_left z lev None, data, levs, nms).

(** [inc_init], eval_iraz.rs:104-153, eval_raz_name_index.rs:97-146. *)
Definition ev_inc_init (size us ns : N) (coord : G) (rng : S) : res (eval_raz * S) :=
  let ev := ev_new us ns coord in
  do nnames <- usize_div size (usize_mul ns us);
  do levels <- usize_div size us;
  let nonames := usize_sub size (usize_mul (usize_mul nnames ns) us) in
  do units <- usize_div nonames us;
  let nounits := usize_sub nonames (usize_mul units us) in
  let (lev_vec, rng) := draw gen_level (N.to_nat levels) rng in
  let (name_vec, ev) := init_names (N.to_nat nnames) (N.to_nat (usize_sub ns 1)) ev in
  let (data, coord) := draw gen_elt (N.to_nat size) (ev_coord ev) in
  let ev := ev_set_coord ev coord in
  do st <- times (N.to_nat nnames)
             (times (N.to_nat ns) (fun st => do st <- times (N.to_nat us) init_push st; init_archive st))
             (raz_new, data, lev_vec, name_vec);
  do st <- times (N.to_nat units)
             (fun st => do st <- times (N.to_nat us) init_push st; init_archive_none st) st;
  do ' (z, _, _, _) <- times (N.to_nat nounits) init_push st;
  do t <- unfocus z;
  Ok (ev_set_tree ev t, rng).

(** One element of a batch: eval_iraz.rs:185-191, same text in [append] and in the
    other harness. *)
Definition edit_step (us ns : N) (st : raz E M * N * list level * list (option name)) (e : E)
    : res (raz E M * N * list level * list (option name)) :=
  let '(z, counter, levs, nms) := st in
  let z := snd (push_left z e) in
  let counter := usize_add counter 1 in
  do r <- usize_rem counter (usize_mul ns us);
  if (r =? 0)%N then
    do ' (lev, levs) <- next_or "lev_name" levs;
    do ' (nm, nms) <- next_or "name" nms;
    Ok (archive_left z lev nm, counter, levs, nms)
  else
    do r <- usize_rem counter us;
    if (r =? 0)%N then
      do ' (lev, levs) <- next_or "lev" levs;
      Ok (archive_left z lev None, counter, levs, nms)
    else Ok (z, counter, levs, nms).

(** The part of [insert] and [append] after the focus: eval_iraz.rs:168-195 and
    210-237, eval_raz_name_index.rs:164-191 and 205-232. *)
Definition ev_edit (ev : eval_raz) (z : raz E M) (batch : N) (rng : S) : res (eval_raz * S) :=
  do new_levels <- usize_div batch (ev_datagauge ev);
  let (lev_vec, rng) := draw gen_level (N.to_nat (usize_add new_levels 1)) rng in
  do new_names <- usize_div batch (usize_mul (ev_namegauge ev) (ev_datagauge ev));
  let (name_vec, ev) := draw ev_next_name (N.to_nat (usize_add new_names 1)) ev in
  let (data, coord) := draw gen_elt (N.to_nat batch) (ev_coord ev) in
  do ' (z, counter, _, _) <- fold_res (edit_step (ev_datagauge ev) (ev_namegauge ev)) data
                               (z, ev_counter ev, lev_vec, map Some name_vec);
  do t <- unfocus z;
  Ok (EvalRaz (Some t) (ev_names ev) coord counter (ev_datagauge ev) (ev_namegauge ev), rng).

End Harness.
Arguments eval_raz E M G : clear implicits.

Section IRazEdits.
Context {E G S : Type} {CG : Coord E G} {WS : WordRng S}.

(** [EvalIRaz::insert], eval_iraz.rs:159-196. *)
Definition ev_insert (ev : eval_raz E count G) (batch : N) (rng : S) : res (eval_raz E count G * S) :=
  do tree <- unwrap "raz uninitialized" (ev_tree ev);
  let len := count_n (rt_meta tree) in
  let (r, coord) := gen_usize (ev_coord ev) in
  do loc <- usize_rem r len;
  do focus <- rt_focus tree loc;
  do z <- unwrap "bad edit location" focus;
  ev_edit (ev_set_coord ev coord) z batch rng.

(** [EvalIRaz::append], eval_iraz.rs:202-238. *)
Definition ev_append (ev : eval_raz E count G) (batch : N) (rng : S) : res (eval_raz E count G * S) :=
  do tree <- unwrap "raz uninitialized" (ev_tree ev);
  do focus <- rt_focus tree (count_n (rt_meta tree));
  do z <- unwrap "bad edit location" focus;
  ev_edit ev z batch rng.
End IRazEdits.

Section NameEdits.
Context {E G S : Type} {CG : Coord E G} {WS : WordRng S}.

(** [EvalRazNameIndex::insert], eval_raz_name_index.rs:152-192. The iteration order
    of the [HashMap]'s keys is unspecified: [order] lists them. *)
Definition evn_insert (order : list name -> list name) (ev : eval_raz E names G) (batch : N) (rng : S)
    : res (eval_raz E names G * S) :=
  do tree <- unwrap "raz uninitialized" (ev_tree ev);
  let ks := order (names_keys (rt_meta tree)) in
  let (r, coord) := gen_usize (ev_coord ev) in
  do i <- usize_rem r (N.of_nat (length ks));
  do loc <- unwrap "nth" (nth_error ks (N.to_nat i));
  do focus <- rt_focus tree (PCenter loc);
  do z <- unwrap "bad edit location" focus;
  ev_edit (ev_set_coord ev coord) z batch rng.

(** [EvalRazNameIndex::append], eval_raz_name_index.rs:198-233. *)
Definition evn_append (ev : eval_raz E names G) (batch : N) (rng : S) : res (eval_raz E names G * S) :=
  do tree <- unwrap "raz uninitialized" (ev_tree ev);
  do focus <- rt_focus tree idx_last;
  do z <- unwrap "bad edit location" focus;
  ev_edit ev z batch rng.
End NameEdits.

(** ** Computations of the Raz harnesses, eval_iraz.rs:241-412 and
    eval_raz_name_index.rs:236-327. [unwrap] of an uninitialised tree panics. *)
Section Comp.
Context {E M G : Type} {RM : RazMeta E M}.

(** [comp_max], eval_iraz.rs:244-251. *)
Definition ev_comp_max (leb : E -> E -> bool) (ev : eval_raz E M G) : res (option E) :=
  do t <- unwrap "unwrap" (ev_tree ev); comp_max_tree leb t.
(** [comp_tfold], eval_iraz.rs:307-314. *)
Definition ev_comp_tfold {O} (init : E -> O) (bin : O -> O -> O) (ev : eval_raz E M G) : res (option O) :=
  do t <- unwrap "unwrap" (ev_tree ev); rt_fold_up t init bin.
(** [comp_tfoldnl], eval_iraz.rs:324-331. *)
Definition ev_comp_tfoldnl {O} (init : E -> O) (bin : O -> O -> O) (binnl : O -> level -> option name -> O -> O)
    (ev : eval_raz E M G) : res (option O) :=
  do t <- unwrap "unwrap" (ev_tree ev); rt_fold_up_nl t init bin binnl.
(** [comp_tfoldg], eval_iraz.rs:340-347; the functions may panic. *)
Definition ev_comp_tfoldg {O} (init : list E -> res O) (bin : O -> level -> option name -> O -> res O)
    (ev : eval_raz E M G) : res (option O) :=
  do t <- unwrap "unwrap" (ev_tree ev); rt_fold_up_gauged t init bin.
(** [comp_fold], eval_iraz.rs:371-378. *)
Definition ev_comp_fold {O} (accum : O) (f : O -> E -> O) (ev : eval_raz E M G) : res O :=
  do t <- unwrap "unwrap" (ev_tree ev); Ok (rt_fold_lr_meta t accum f (fun a _ => a)).
(** [comp_fold_meta], eval_iraz.rs:387-394. *)
Definition ev_comp_fold_meta {O} (accum : O) (f : O -> E -> O) (n : O -> level * option name -> O)
    (ev : eval_raz E M G) : res O :=
  do t <- unwrap "unwrap" (ev_tree ev); Ok (rt_fold_lr_meta t accum f n).
(** [comp_fold_archive], eval_iraz.rs:404-411. *)
Definition ev_comp_fold_archive {O} (accum : O) (f : O -> E -> O) (ff : O -> option name -> O)
    (n : O -> level -> O) (ev : eval_raz E M G) : res O :=
  do t <- unwrap "unwrap" (ev_tree ev); Ok (rt_fold_lr_archive t accum f ff n).
(** [comp_map], eval_iraz.rs:355-362. *)
Definition ev_comp_map {O N} {RN : RazMeta O N} (f : E -> O) (ev : eval_raz E M G) : res (raz_tree O N) :=
  do t <- unwrap "unwrap" (ev_tree ev); rt_map f t.
End Comp.

(** ** [EvalVec], eval/src/eval_vec.rs. *)
Section VecHarness.
Context {E G : Type} {CG : Coord E G}.

(** eval_vec.rs:11-14. *)
Definition eval_vec : Type := list E * G.

(** [inc_empty] and [inc_from], eval_vec.rs:32-49. *)
Definition vec_inc_empty (coord : G) : eval_vec := ([], coord).
Definition vec_inc_from (data : list E) (coord : G) : eval_vec := (data, coord).

(** [inc_init], eval_vec.rs:57-66. *)
Definition vec_inc_init (size : N) (coord : G) : eval_vec :=
  let (data, coord) := draw gen_elt (N.to_nat size) coord in
  (fold_left (fun v e => v ++ [e]) data [], coord).

(** [extend], eval_vec.rs:72-78. *)
Definition vec_extend (ev : eval_vec) (batch : N) : eval_vec :=
  let (data, coord) := draw gen_elt (N.to_nat batch) (snd ev) in
  (fst ev ++ data, coord).

(** [append], eval_vec.rs:84-92. *)
Definition vec_append (ev : eval_vec) (batch : N) : eval_vec :=
  let (data, coord) := draw gen_elt (N.to_nat batch) (snd ev) in
  (fold_left (fun v e => v ++ [e]) data (fst ev), coord).

(** [Vec::insert]: panics if the index is beyond the end. *)
Definition vec_insert_at (v : list E) (i : N) (e : E) : res (list E) :=
  if (vec_len v <? i)%N then Panic "insertion index"
  else Ok (firstn (N.to_nat i) v ++ e :: skipn (N.to_nat i) v).

(** [insert], eval_vec.rs:97-106. *)
Definition vec_insert (ev : eval_vec) (batch : N) : res eval_vec :=
  let (data, coord) := draw gen_elt (N.to_nat batch) (snd ev) in
  let (r, coord) := gen_usize coord in
  do loc <- usize_rem r (vec_len (fst ev));
  do v <- fold_res (fun v e => vec_insert_at v loc e) data (fst ev);
  Ok (v, coord).

(** [comp_max], [comp_rev], [comp_map], [comp_fold], [comp_fold_meta], eval_vec.rs:112-193. *)
Definition vec_comp_max (leb : E -> E -> bool) (ev : eval_vec) : option E := comp_max_vec leb (fst ev).
Definition vec_comp_rev (ev : eval_vec) : list E := rev (fst ev).
Definition vec_comp_map {O} (f : E -> O) (ev : eval_vec) : list O := map f (fst ev).
Definition vec_comp_fold {O} (accum : O) (f : O -> E -> O) (ev : eval_vec) : O := fold_left f (fst ev) accum.
Definition vec_comp_fold_meta {O Mt} (accum : O) (f : O -> E -> O) (n : O -> Mt -> O) (ev : eval_vec) : O :=
  fold_left f (fst ev) accum.
End VecHarness.
Arguments eval_vec E G : clear implicits.
