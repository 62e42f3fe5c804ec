(** * The second stage of eval/examples/adder.rs, the parser, over stores of named cells and
      with memo entries: the engine of ListIncModel, with an accumulator that is also popped,
      so that its cells are read during the fold. *)

From Verif Require Import Base StackModel AStackModel LevelTreeModel TreeCursorModel RazMetaModel RazModel AccumModel ExampleModel MemoModel StoreModel IncModel
  ListIncModel TokenIncModel.

Section Stack.
Context {T A S X R : Type}.
Notation wm := (wm T A (body S) X R).
(** [force] of a cell of the accumulator, as used in src/stack.rs:94, 104. *)
Definition w_look (a : loc) : wm (body S) :=
  fun _ cs tab => do c <- unwrap "force: no such cell" (cs a); Ok (c, cs, [WCell a c], tab, []).
(** [force(&self.main)], src/stack.rs:94, 104. *)
Definition w_head (h : shead S) : wm (body S) :=
  match h with
  | HPut e n => w_ret (e, n)
  | HCell a => w_look a
  end.
(** [Stack::peek] and [Stack::pull], src/stack.rs:56-58, 69-71, with those of [Head], 93-105. *)
Definition w_peek (s : option (shead S)) : wm (option S) :=
  match s with
  | None => w_ret None
  | Some h => wop ' (e, _) <- w_head h; w_ret (Some e)
  end.
Definition w_pull (s : option (shead S)) : wm (option (option (shead S))) :=
  match s with
  | None => w_ret None
  | Some h => wop ' (_, n) <- w_head h; w_ret (Some n)
  end.
End Stack.

Section AStack.
Context {T A E M X R : Type}.
Notation wm := (wm T A (body (M * list E)) X R).
(** [AStack::retrieve], src/archive_stack.rs:170-177. *)
Definition wa_retrieve (s : sastack E M) : wm (sastack E M) :=
  match sa_current s with
  | [] =>
      wop o <- w_peek (sa_archived s);
      wop ' (_, v) <- w_lift (unwrap "retrieve: peek" o);
      wop o <- w_pull (sa_archived s);
      wop rest <- w_lift (unwrap "retrieve: pull" o);
      w_ret (SAStack v rest)
  | _ => w_ret s
  end.
(** [AStack::pop], src/archive_stack.rs:90-94, as [seq_pop], eval/src/interface.rs:64-67. *)
Definition wa_pop (s : sastack E M) : wm (option E * sastack E M) :=
  if sa_is_empty s then w_ret (None, s)
  else
    wop s1 <- wa_retrieve s;
    let (e, v) := vec_pop (sa_current s1) in
    w_ret (e, SAStack v (sa_archived s1)).
End AStack.

(** Equality of contents of cells and of accumulators, src/stack.rs:22-36,
    src/archive_stack.rs:34. *)
Definition eq_num_cell (x y : body (level * list N)) : {x = y} + {x <> y}.
Proof. apply eq_body. decide equality; [apply (list_eq_dec N.eq_dec)|apply N.eq_dec]. Defined.
Definition eq_nums (x y : sastack N level) : {x = y} + {x <> y} := eq_sastack N.eq_dec N.eq_dec x y.

Section Parse.
Context {M : Type} {RM : RazMeta token M} (eqD : forall x y : tree_data token M, {x = y} + {x <> y}) {Nsp : here}.
Notation nums := (sastack N level).
Notation wm := (wm (level * list token) (tree_data token M) (body (level * list N)) (stree (tree_data token M) * option name * nums) nums).

(** [parse_step], eval/examples/adder.rs:193-208. *)
Definition w_parse_step (n : nums) (t : token) : wm nums :=
  match t with
  | Num a => w_ret (sa_push n a)
  | OpPlus =>
      wop ' (b, n) <- wa_pop n;
      match b with
      | Some b =>
          wop ' (a, n) <- wa_pop n;
          match a with
          | Some a => w_ret (sa_push n (u32_madd a 1 b))
          | None => w_ret (sa_push n b)
          end
      | None => w_ret n
      end
  end.
Fixpoint w_parse_steps (v : list token) (n : nums) : wm nums :=
  match v with
  | [] => w_ret n
  | t :: v => wop n <- w_parse_step n t; w_parse_steps v n
  end.
(** The closure of [fold_lr_meta], src/raz.rs:248-257, with [parse_meta],
    eval/examples/adder.rs:210-212. *)
Definition w_parse_node (a : nums) (d : tree_data token M) (l : level) (n : option name) : wm nums :=
  match d with
  | Leaf v => w_parse_steps v a
  | _ => was_archive (fun l => l) a (l, n)
  end.
(** The fold, src/raz.rs:239-260, eval/src/eval_iraz.rs:381-395, with the initial value of
    eval/examples/adder.rs:250. *)
Definition parse_inc (k : nat) (t : sraz_tree token M) : wm nums :=
  match srt_tree t with
  | None => w_ret sa_new
  | Some tr => w_fold_lr_meta eqD eq_num_cell eq_nums k w_parse_node tr (Some (NStr "start")) sa_new
  end.
End Parse.
