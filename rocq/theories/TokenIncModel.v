(** * The first stage of eval/examples/adder.rs, the tokenizer, over stores of named cells and
      with memo entries: the engine of ListIncModel, with an accumulator that is a pair of an
      archive stack in cells and the number being read.

    As in ExampleModel the accumulator is a result, so that a panic of [tokenize_step] is
    passed on to the end of the fold; there it makes the whole run panic, and nothing of
    the run is seen. *)

From Verif Require Import Base StackModel AStackModel LevelTreeModel TreeCursorModel RazMetaModel RazModel AccumModel ExampleModel MemoModel StoreModel IncModel
  ListIncModel.

(** [IFaceSeq::seq_push] for [AStack], eval/src/interface.rs:59-68. [tokenize_step] and
    [tokenize_final] neither pop nor archive; archiving uses cells and is [was_archive]. *)
Definition tok_iface : IFace token (sastack token level) :=
  {| if_new := sa_new; seq_push := sa_push; seq_pop := fun _ => Panic "seq_pop: not used"; if_archive := fun a _ => a |}.

(** The accumulator of the fold. *)
Definition tok_state : Type := res (sastack token level * option N).
Definition eq_token (x y : token) : {x = y} + {x <> y}.
Proof. decide equality. apply N.eq_dec. Defined.
(** Its [PartialEq]: that of pairs, of [Option] and of [AStack], src/archive_stack.rs:34. *)
Definition eq_tok_state (x y : tok_state) : {x = y} + {x <> y}.
Proof.
  decide equality; [|apply string_dec]. decide equality; [decide equality; apply N.eq_dec|].
  apply (eq_sastack eq_token N.eq_dec).
Defined.
Definition eq_tok_cell (x y : body (level * list token)) : {x = y} + {x <> y}.
Proof. apply eq_body. decide equality; [apply (list_eq_dec eq_token)|apply N.eq_dec]. Defined.

Section Tokenize.
Context {M : Type} {RM : RazMeta N M} (eqD : forall x y : tree_data N M, {x = y} + {x <> y}) {Nsp : here}.
Notation wm := (wm (level * list N) (tree_data N M) (body (level * list token)) (stree (tree_data N M) * option name * tok_state) tok_state).

(** [tokenize_step], eval/examples/adder.rs:161-181. *)
Definition tok_push (a : tok_state) (c : N) : tok_state := do st <- a; tokenize_step tok_iface st c.
(** [tokenize_meta], eval/examples/adder.rs:183-185. *)
Definition tok_archive (a : tok_state) (m : level * option name) : wm tok_state :=
  match a with
  | Ok (ts, part) => wop ts <- was_archive (fun l => l) ts m; w_ret (Ok (ts, part))
  | _ => w_ret a
  end.
(** The fold, eval/src/eval_iraz.rs:381-395 with the initial value of
    eval/examples/adder.rs:235. *)
Definition tok_fold (k : nat) (t : sraz_tree N M) : wm tok_state :=
  w_rt_fold_lr_meta eqD eq_tok_cell eq_tok_state tok_push tok_archive (Ok (sa_new, None)) k t.
(** [tokenize_final], eval/examples/adder.rs:187-191 and 238-239. *)
Definition tok_final (a : tok_state) : res (sastack token level) := do st <- a; Ok (tokenize_final tok_iface st).
Definition tokenize_inc (k : nat) (t : sraz_tree N M) : wm (sastack token level) :=
  wop a <- tok_fold k t; w_lift (tok_final a).
End Tokenize.
