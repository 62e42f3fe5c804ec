(** * The harness [EvalIRaz] and its experiments over the mutable store.

    EvalModel and ActionModel have these over immutable values; here the tree of the
    harness is a handle whose named nodes are cells (StoreModel), and the computation of
    an experiment uses a memo table (IncModel). The namespace in force is the implicit
    argument [Nsp]; [comp] may run in another one. Timing is dropped, loops of the Raz
    take their fuel as an argument [k]. *)

From Verif Require Import Base RazMetaModel RazModel LevelTreeModel LevelGenModel ExampleModel EvalModel EvalSpec MemoModel StoreModel IncModel.

(** [for _ in 0..n { .. }] and [for e in l { .. }] over a state. *)
Fixpoint s_times {T A X} (n : nat) (body : X -> sm T A X) (x : X) : sm T A X :=
  match n with
  | O => s_ret x
  | Datatypes.S n' => act x1 <- body x; s_times n' body x1
  end.
Fixpoint s_each {T A X Y} (body : X -> Y -> sm T A X) (l : list Y) (x : X) : sm T A X :=
  match l with
  | [] => s_ret x
  | y :: r => act x1 <- body x y; s_each body r x1
  end.

Section Harness.
Context {E M G S : Type} {RM : RazMeta E M} {CG : Coord E G} {WS : WordRng S} {Nsp : here}.
Notation rm := (sm (level * list E) (tree_data E M)).

(** [EvalIRaz], eval/src/eval_iraz.rs:18-26. *)
Record seval_raz : Type := SEvalRaz {
  sv_tree : option (sraz_tree E M);
  sv_names : N;
  sv_coord : G;
  sv_counter : N;
  sv_datagauge : N;
  sv_namegauge : N
}.

(** [new], eval_iraz.rs:37-46. *)
Definition sv_new (us ns : N) (coord : G) : seval_raz := SEvalRaz None 0 coord 0 us ns.

(** [next_name], eval_iraz.rs:47-51. *)
Definition sv_next_name (sv : seval_raz) : name * seval_raz :=
  (NNum (sv_names sv),
   SEvalRaz (sv_tree sv) (usize_add (sv_names sv) 1) (sv_coord sv) (sv_counter sv)
     (sv_datagauge sv) (sv_namegauge sv)).

Definition sv_set_tree (sv : seval_raz) (t : sraz_tree E M) : seval_raz :=
  SEvalRaz (Some t) (sv_names sv) (sv_coord sv) (sv_counter sv) (sv_datagauge sv) (sv_namegauge sv).
Definition sv_set_coord (sv : seval_raz) (g : G) : seval_raz :=
  SEvalRaz (sv_tree sv) (sv_names sv) g (sv_counter sv) (sv_datagauge sv) (sv_namegauge sv).

(** [inc_empty], eval_iraz.rs:57-63. *)
Definition sv_inc_empty (k : nat) (us ns : N) (coord : G) : rm seval_raz :=
  act t <- s_unfocus k s_raz_new; s_ret (sv_set_tree (sv_new us ns coord) t).
(** [inc_from] of a tree, eval_iraz.rs:77-86. *)
Definition sv_from_tree (t : sraz_tree E M) (us ns : N) (coord : G) : seval_raz :=
  sv_set_tree (sv_new us ns coord) t.

(** The names of [inc_init], eval_iraz.rs:119-125. *)
Fixpoint s_init_names (n k : nat) (sv : seval_raz) : list (option name) * seval_raz :=
  match n with
  | O => ([], sv)
  | Datatypes.S n' =>
      let (nm, sv1) := sv_next_name sv in
      let (l, sv2) := s_init_names n' k sv1 in
      (repeat None k ++ Some nm :: l, sv2)
  end.

(** The Raz and what is left of the three iterators. *)
Definition s_init_state : Type := sraz_z E M * list E * list level * list (option name).

(** eval_iraz.rs:135. *)
Definition s_init_push (x : s_init_state) : rm s_init_state :=
  let '(z, data, levs, nms) := x in
  act ' (e, data) <- s_lift (next_or "init" data);
  s_ret (snd (s_push_left z e), data, levs, nms).
(** eval_iraz.rs:137. *)
Definition s_init_archive (x : s_init_state) : rm s_init_state :=
  let '(z, data, levs, nms) := x in
  act ' (lev, levs) <- s_lift (next_or "init" levs);
  act ' (nm, nms) <- s_lift (next_or "init" nms);
  act z <- s_archive_left z lev nm;
  s_ret (z, data, levs, nms).
(** eval_iraz.rs:145. *)
Definition s_init_archive_none (x : s_init_state) : rm s_init_state :=
  let '(z, data, levs, nms) := x in
  act ' (lev, levs) <- s_lift (next_or "init" levs);
  act z <- s_archive_left z lev None;
  s_ret (z, data, levs, nms).

(** [inc_init], eval_iraz.rs:104-153. *)
Definition sv_inc_init (k : nat) (size us ns : N) (coord : G) (rng : S) : rm (seval_raz * S) :=
  let sv := sv_new us ns coord in
  act nnames <- s_lift (usize_div size (usize_mul ns us));
  act levels <- s_lift (usize_div size us);
  let nonames := usize_sub size (usize_mul (usize_mul nnames ns) us) in
  act units <- s_lift (usize_div nonames us);
  let nounits := usize_sub nonames (usize_mul units us) in
  let (lev_vec, rng) := draw gen_level (N.to_nat levels) rng in
  let (name_vec, sv) := s_init_names (N.to_nat nnames) (N.to_nat (usize_sub ns 1)) sv in
  let (data, coord) := draw gen_elt (N.to_nat size) (sv_coord sv) in
  let sv := sv_set_coord sv coord in
  act x <- s_times (N.to_nat nnames)
             (s_times (N.to_nat ns) (fun x => act x <- s_times (N.to_nat us) s_init_push x; s_init_archive x))
             (s_raz_new, data, lev_vec, name_vec);
  act x <- s_times (N.to_nat units)
             (fun x => act x <- s_times (N.to_nat us) s_init_push x; s_init_archive_none x) x;
  act ' (z, _, _, _) <- s_times (N.to_nat nounits) s_init_push x;
  act t <- s_unfocus k z;
  s_ret (sv_set_tree sv t, rng).

(** One element of a batch, eval_iraz.rs:185-191 and 227-233. *)
Definition s_edit_step (us ns : N) (x : sraz_z E M * N * list level * list (option name)) (e : E)
    : rm (sraz_z E M * N * list level * list (option name)) :=
  let '(z, counter, levs, nms) := x in
  let z := snd (s_push_left z e) in
  let counter := usize_add counter 1 in
  act r <- s_lift (usize_rem counter (usize_mul ns us));
  if (r =? 0)%N then
    act ' (lev, levs) <- s_lift (next_or "lev_name" levs);
    act ' (nm, nms) <- s_lift (next_or "name" nms);
    act z <- s_archive_left z lev nm;
    s_ret (z, counter, levs, nms)
  else
    act r <- s_lift (usize_rem counter us);
    if (r =? 0)%N then
      act ' (lev, levs) <- s_lift (next_or "lev" levs);
      act z <- s_archive_left z lev None;
      s_ret (z, counter, levs, nms)
    else s_ret (z, counter, levs, nms).

(** The part of [insert] and [append] after the focus, eval_iraz.rs:168-195, 210-237. *)
Definition sv_edit (k : nat) (sv : seval_raz) (z : sraz_z E M) (batch : N) (rng : S) : rm (seval_raz * S) :=
  act new_levels <- s_lift (usize_div batch (sv_datagauge sv));
  let (lev_vec, rng) := draw gen_level (N.to_nat (usize_add new_levels 1)) rng in
  act new_names <- s_lift (usize_div batch (usize_mul (sv_namegauge sv) (sv_datagauge sv)));
  let (name_vec, sv) := draw sv_next_name (N.to_nat (usize_add new_names 1)) sv in
  let (data, coord) := draw gen_elt (N.to_nat batch) (sv_coord sv) in
  act ' (z, counter, _, _) <- s_each (s_edit_step (sv_datagauge sv) (sv_namegauge sv)) data
                                (z, sv_counter sv, lev_vec, map Some name_vec);
  act t <- s_unfocus k z;
  s_ret (SEvalRaz (Some t) (sv_names sv) coord counter (sv_datagauge sv) (sv_namegauge sv), rng).
End Harness.
Arguments seval_raz E M G : clear implicits.

Section IRazEdits.
Context {E G S : Type} {CG : Coord E G} {WS : WordRng S} {Nsp : here}.
Notation rm := (sm (level * list E) (tree_data E count)).

(** [EvalIRaz::insert], eval_iraz.rs:159-196. *)
Definition sv_insert (k : nat) (sv : seval_raz E count G) (batch : N) (rng : S) : rm (seval_raz E count G * S) :=
  act tree <- s_lift (unwrap "raz uninitialized" (sv_tree sv));
  let len := count_n (srt_meta tree) in
  let (r, coord) := gen_usize (sv_coord sv) in
  act loc <- s_lift (usize_rem r len);
  act focus <- s_focus k tree loc;
  act z <- s_lift (unwrap "bad edit location" focus);
  sv_edit k (sv_set_coord sv coord) z batch rng.

(** [EvalIRaz::append], eval_iraz.rs:202-238. *)
Definition sv_append (k : nat) (sv : seval_raz E count G) (batch : N) (rng : S) : rm (seval_raz E count G * S) :=
  act tree <- s_lift (unwrap "raz uninitialized" (sv_tree sv));
  act focus <- s_focus k tree (count_n (srt_meta tree));
  act z <- s_lift (unwrap "bad edit location" focus);
  sv_edit k sv z batch rng.

(** [BatchAppend::edit], [BatchInsert::edit], eval/src/actions.rs:76-90. *)
Definition siraz_editor (k : nat) (o : hop) (sv : seval_raz E count G) (rng : S) : rm (seval_raz E count G * S) :=
  match o with HAppend b => sv_append k sv b rng | HInsert b => sv_insert k sv b rng end.
End IRazEdits.

Section Tests.
Context {E M G S K R Y : Type}.
Notation rstore := (store (level * list E) (tree_data E M)).
Notation tab := (itab (tree_data E M) K R).

(** The computations of [EvalIRaz] (eval_iraz.rs:241-420) fold a clone of the handle. *)
Definition sv_compute (comp : sraz_tree E M -> im (level * list E) (tree_data E M) K R Y) (sv : seval_raz E M G)
    : im (level * list E) (tree_data E M) K R Y :=
  inc t <- i_lift (unwrap "unwrap" (sv_tree sv)); comp t.

(** What a step of an experiment leaves behind: the store and the harness at each
    computation, the answers and the handles whose folds have run, in order; and the
    generator, the store and the table now. *)
Record session : Type := Session {
  se_data : list (rstore * seval_raz E M G);
  se_answers : list Y;
  se_work : list (list (stree (tree_data E M)));
  se_now : seval_raz E M G;
  se_rng : S;
  se_store : rstore;
  se_tab : tab
}.

(** A creation or an edit, then a computation: test_seq.rs:36-50 and 54-70. *)
Definition s_test_step (comp : sraz_tree E M -> im (level * list E) (tree_data E M) K R Y)
    (make : sm (level * list E) (tree_data E M) (seval_raz E M G * S))
    (ds : list (rstore * seval_raz E M G)) (ys : list Y) (lgs : list (list (stree (tree_data E M))))
    (st : rstore) (t : tab) : res session :=
  do ' ((sv, rng), st) <- make st;
  do ' (y, _, t, lg) <- sv_compute comp sv st t;
  Ok (Session (ds ++ [(st, sv)]) (ys ++ [y]) (lgs ++ [lg]) sv rng st t).

(** [EditComputeSequence::test], eval/src/test_seq.rs:27-77, 96-151. *)
Definition s_test_seq (create : S -> sm (level * list E) (tree_data E M) (seval_raz E M G * S))
    (edit : seval_raz E M G -> S -> sm (level * list E) (tree_data E M) (seval_raz E M G * S))
    (comp : sraz_tree E M -> im (level * list E) (tree_data E M) K R Y) (changes : N) (rng : S)
    (st : rstore) (t : tab) : res session :=
  do x <- s_test_step comp (create rng) [] [] [] st t;
  times (N.to_nat changes)
    (fun x => s_test_step comp (edit (se_now x) (se_rng x)) (se_data x) (se_answers x) (se_work x) (se_store x) (se_tab x)) x.
End Tests.
Arguments session E M G S K R Y : clear implicits.
