(** * Both stages of eval/examples/adder.rs over stores of named cells, with memo entries:
      the tokenizer (TokenIncModel), the conversion of the token stack to a tree
      (IncFromModel) and the parser (ParseIncModel).

    The tokenizer works in the namespace [q1], the conversion in [q2] and the parser in
    [q3], which differ in the code: "tokenize", [name_to_tree] and "parse",
    eval/examples/adder.rs:213, 233, 239, 249. Cells of the token stack are kept apart from
    those of trees, as in TokenIncModel; the conversion sees both. *)

From Verif Require Import Base StackModel AStackModel LevelTreeModel TreeCursorModel RazMetaModel RazModel AccumModel ExampleModel MemoModel StoreModel IncModel
  StoreMapModel IncFromModel ListIncModel TokenIncModel ParseIncModel.

Section Adder.
Context {M M' : Type} {RM : RazMeta N M} {RM' : RazMeta token M'} (eqK : forall x y : token, {x = y} + {x <> y}) (eqD : forall x y : tree_data N M, {x = y} + {x <> y})
  (eqD' : forall x y : tree_data token M', {x = y} + {x <> y}).
Notation tok_store := (store (level * list token) (tree_data token M')).
Notation tok_cells := (wcells (body (level * list token))).
Notation num_cells := (wcells (body (level * list N))).
Notation tok_table := (wtab (tree_data N M) (body (level * list token)) (stree (tree_data N M) * option name * tok_state) tok_state).
Notation conv_table := (ctab (level * list token) (tree_data token M') (@vkey token M') (@s_from_result token M')).
Notation num_table := (wtab (tree_data token M') (body (level * list N)) (stree (tree_data token M') * option name * sastack N level) (sastack N level)).

(** What is kept from run to run: the cells of the token stack, of token trees and of the
    number stack, the memo entries of the two folds, src/level_tree.rs:361-418, and those of
    the conversion, src/raz.rs:717-778. *)
Record memory : Type := Memory { m_tokens : tok_cells; m_trees : tok_store; m_numbers : num_cells; m_memo1 : tok_table; m_memo2 : conv_table; m_memo3 : num_table }.
(** The store in which the token stack is read, src/stack.rs:22-36. *)
Definition with_tokens (cs : tok_cells) (st : tok_store) : tok_store :=
  fun a => match cs a with Some (e, n) => Some (CBody e n) | None => st a end.
(** [Compute2], eval/src/actions.rs:112-126, of the two [MFolder], eval/examples/adder.rs:231-255,
    with [inc_from], eval/src/eval_iraz.rs:88-97, in between. Also: how many calls of memoised code each stage entered. *)
Definition adder_store (q1 q2 q3 : list name) (k : nat) (t : sraz_tree N M) (st : store (level * list N) (tree_data N M)) (m : memory)
    : res (sastack N level * memory * (nat * nat * nat)) :=
  do ' (ts, cs1, _, tab1, lg1) <- tokenize_inc (Nsp := q1) eqD k t st (m_tokens m) (m_memo1 m);
  do ' (tr, st2, _, tab2, lg2) <- v_from_at_tail (Nsp := q2) eqK eqD' k ts (with_tokens cs1 (m_trees m)) (m_memo2 m);
  do ' (ns, cs3, _, tab3, lg3) <- parse_inc (Nsp := q3) eqD' k tr st2 (m_numbers m) (m_memo3 m);
  Ok (ns, Memory cs1 st2 cs3 tab1 tab2 tab3, (length lg1, length lg2, length lg3)).
End Adder.
Arguments memory M M' : clear implicits.
