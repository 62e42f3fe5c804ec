# Formal model of cuplv/iodyn.rust — design

The Rust sources in `/repo` are read as text. The model is written in Rocq/Coq
8.16.1 under `rocq/theories/`, one `*Model` style file per Rust file, with the
proofs in separate files and the property theorems in files that contain
nothing else.

## 1. What is trusted

* the Coq kernel (`coqc`, re-checkable with `coqchk -o`);
* the axioms listed by `Print Assumptions` below every property theorem
  (the aim is *Closed under the global context* for every one of them);
* the hand translation Rust -> Gallina. Every model definition cites the file
  and lines it translates. Nothing else is assumed: no own axioms, no
  `Admitted`, no plugins.

A context listing of the whole development (`coqchk -o`) also names the axioms
`Coq.ssr.ssrunder.Under_rel.*` of the standard library, which come in with
`Lia`. No theorem here depends on them (`Print Assumptions` says so under each).

## 2. General modelling decisions

* **Panics** (`unwrap`, `expect`, `assert!`, `panic!`, `unreachable!`, slice
  bounds) are an explicit value `Panic` of the result type `res`. A Rust
  function that cannot reach any of these is a plain Gallina function.
* **Loops** run on fuel computed from the size of the data; running out of fuel
  is a third explicit value `Fuel`. Theorems conclude `... = Ok ...`, which
  excludes both.
* **`&mut self`** methods return the new value.
* **`Vec`** is `list` (index 0 first). Where a `Vec` is used as a stack only
  (the two forests of a tree cursor, push/pop/last at the end) the model list
  keeps the end of the `Vec` first, so that push is cons.
* **Levels** (`u32`) are `N`; no arithmetic is ever done on them, the only
  place where the bound matters is `u32::max_value()` in `memo_from`, which is
  kept. **`usize`** counts and indexes are `N` with addition modulo 2^64
  (release-build arithmetic); theorems about counts carry the bound explicitly.
* **`Art<T>`** (adapton cells). In the main model an `Art` is its content:
  `cell(n,v)`/`put(v)` return `v` and `force` is the identity. This is the
  behaviour of the engine for structures whose names are not reused. The
  mutable behaviour of *named* cells is modelled separately (store model, see
  C51..C53), including a proof that the two agree when names are distinct.
* **`memo!`** is a plain call in the main model. `MemoModel.v` models the folds and
  `map` once more with the memo table in view: one entry per name, used when the
  arguments before the `;;` are equal to the recorded ones (a tree is equal when
  everything below the handle is), replaced when the call returns; the closure after
  `;;` is not compared; one namespace. C69 shows that both models answer the same.
  That Adapton behaves like this table is trusted. It does at least as well: it may
  also reuse a result when a changed input leads to equal intermediate values.
  `IncModel.v` joins the two: memo entries over the mutable store, each with its
  arguments (handles), the cells read directly or by calls below, and its result; an
  entry is used when the arguments are the same and all these cells still hold what was
  read. Trusted again: that Adapton's change propagation does at least this.
  `IncMapModel.v` does this for `map`, which writes: there an entry also knows the cells
  written, and is used only while these hold what was written. `IncFromModel.v` does it for
  the two `memo_from`.
* **Names** are the free algebra: unit, string, number, pair, fork-left,
  fork-right. In adapton names are compared through hashes; collisions are not
  modelled.
* **`Hash`/`Debug`/`Eq` derivations, capacities, `println!`, timing, random
  generators** are not modelled; random numbers are inputs.
* `Rc<F>` closures are Gallina functions (total, effect free).
* Traits (`RazMeta`, `TreeUpdate`) are type classes (records), not module types.

## 3. Code modelled / not modelled

| Rust | model | remarks |
|---|---|---|
| src/stack.rs | yes | all functions |
| src/archive_stack.rs | yes | all functions |
| src/level_tree.rs | yes | `println!` output of `good_levels` dropped |
| src/tree_cursor.rs | yes | all functions; `IterL` has no code in the source |
| src/raz_meta.rs | yes | `Names` map is a duplicate-free list of its keys (the map has unit values); its equality and hash, and those of tries, in EqualModel.v |
| src/raz.rs | yes | all live code (not the commented-out iterators) |
| src/stack.rs, archive_stack.rs, level_tree.rs, tree_cursor.rs, raz.rs over a store | StoreModel.v | a second model in which `cell(n, v)` overwrites the cell `n` of the current namespace; no change propagation; the cursor iterators are not repeated there, `map` and `memo_from` are in StoreMapModel.v |
| cursor moves of src/tree_cursor.rs, raz.rs, counted | WorkModel.v | twins of the functions of the main model with a number of moves; proved to agree with them |
| `memo!` in src/level_tree.rs, src/raz.rs | MemoModel.v | folds and map with an explicit memo table |
| `memo!` in `IterR::fold_out`, src/tree_cursor.rs | IterMemoModel.v | as above; iterators compared field by field |
| `memo!` in the builders of `memo_from`, src/raz.rs | MemoFromModel.v | as above; the stack argument is compared as content; conversions of one kind share a table |
| `map` and `memo_from` of src/level_tree.rs, src/raz.rs over a store | StoreMapModel.v | `memo!` is a call; a store holds data of one type, so `map` goes from an element type to itself |
| the folds of src/level_tree.rs, src/raz.rs over a store | IncModel.v | memo table with recorded reads; `map`, with recorded writes, is in IncMapModel.v, `memo_from` in IncFromModel.v |
| src/memo.rs | trivial identity, not modelled |
| src/trees.rs | `NegBin::rand`; `Level` in TypesModel.v | the rest are abstract traits without implementations of trees |
| src/skiplist.rs | yes | hash function is a parameter |
| src/skiplist.rs over a store; unique_elms.rs on it | SkipStoreModel.v, UniqueStoreModel.v | cells overwritten through all references; no change propagation, `memo!` is a call |
| eval/examples/unique_elms.rs memoised, over stores | UniqueIncModel.v | trees and skiplists in two stores; entries record the cells read and written; paths behind references compared by address; no cleaning of old cells |
| eval/src/eval_iraz.rs, actions.rs, test_seq.rs over a store | ExpStoreModel.v | the memoised computation is one of the folds of IncModel, kept table; timing dropped; the computations that build trees (reverse, filter) are in BuildIncModel.v, without the edits of the harness; EvalRazNameIndex not covered here |
| eval/examples/reverse.rs, filter.rs memoised, over a store | BuildIncModel.v | as IncMapModel.v; results are trees, made in the namespace that the closure enters |
| eval/examples/tree_to_list.rs memoised, over a store, into `List`, `VecList` and `AStack` | ListIncModel.v | cells of the accumulator are kept apart from those of the tree, so neither can overwrite the other; entries record the cells read and written; no cleaning of old cells; the `Rc` variants share the model |
| eval/examples/adder.rs, the tokenizer memoised, over a store, into `AStack` | TokenIncModel.v | engine of ListIncModel.v; a panic is passed on to the end of the fold and the run then panics |
| eval/examples/adder.rs, the parser memoised, over a store, into `AStack` | ParseIncModel.v | engine of ListIncModel.v, with pops that read cells |
| eval/examples/adder.rs, tokenizer, `memo_from` and parser in sequence over a store | AdderIncModel.v | the folds and `memo_from` memoised with kept tables; namespaces of the stages are parameters, cells of stacks are kept apart from those of trees |
| eval/examples/adder.rs and eval/src/test_seq.rs, the adder run after each edit over a store | AdderExpModel.v | harness of ExpStoreModel, adder of AdderIncModel with its memory; timing dropped |
| eval/examples/tree_to_list.rs and eval/src/test_seq.rs, the fold run after each edit over a store | ListExpModel.v | harness of ExpStoreModel, folds of ListIncModel with their cells and table; timing dropped |
| src/trie.rs | yes | `HashMap` as association list; hash functions are parameters |
| src/lib.rs | `inc_level` | |
| eval/src/accum_lists.rs | yes | the `Rc` and plain variants have the same code and share a model |
| eval/src/interface.rs | yes | the three traits as one class, with its instances for lists, `Vec`, `AStack` and `Raz` |
| eval/src/eval_iraz.rs, eval_vec.rs, eval_raz_name_index.rs | creation, edits, and the computations listed in C67 | timing dropped; random generators are state machines given as parameters; the iteration order of the `HashMap` of names is a parameter of each call |
| eval/examples/reverse.rs, filter.rs, max.rs, tree_to_list.rs, unique_elms.rs | the computation closures only | `Iterator::max` and `cmp::max` modelled by their documented tie rule |
| eval/examples/adder.rs | tokenizer, parser, both pipelines, the `reference` module | characters are code points; arithmetic wraps as in release builds |
| eval/src/actions.rs, test_seq.rs, test_build.rs | ActionModel.v | durations are dropped, the data made and the answers computed are kept instead; the methods of the harness traits are passed as functions; the sizes of a build test (`f32::powi`) are a parameter |
| eval/examples/*.rs, the experiments | the computation of each (`use_..` in ActionModel.v) and the loop it runs in | |
| eval/examples/*.rs, the printed report and the data files | ReportModel.v | exact numbers of nanoseconds instead of `f64` milliseconds; formatting and plot scripts not modelled |
| eval/src/examples.rs | SampleModel.v | |
| eval/src/types.rs | TypesModel.v | the generator is the word it draws, the hasher the list of words it is given |
| the randomised tests of src/raz.rs, src/skiplist.rs | TestsModel.v | what is drawn is a parameter, and so are the constants; the other tests are replayed as examples in ModelTests.v |
| rest of eval/ (command line, plotting, timing) | no | |

## 4. Specification vocabulary

Kept apart from the model (`Spec*.v`): a sequence with archive points is a list
of *atoms*, `Elt e` or `Mark level name`. An abstract Raz is a pair of atom
lists (left of the cursor, nearest first; right of the cursor, nearest first).
Its operations are a few lines of list code. An abstract archive stack is one
atom list. A finite map is a function from keys to options.

Two invariants connect the concrete trees to it:

* *well-formed*: every inner node has two children, level >= 1 and metadata
  equal to the metadata recomputed from the children; every leaf has level 0,
  no name, no children and at least one element;
* *conventional levels*: left child level < parent level, right child level <=
  parent level. (This is the convention of `join`, `up`, `memo_from` and the
  doc in trees.rs; `good_levels` checks a different one, see C34.)

Well-formedness alone gives all content properties (bad levels do not matter
for them); conventional levels give the canonical form.

`ChanceSpec.v`: `sum_draws n g` adds `g` over all (2^64)^n sequences of n words and
`on_average n g b` says that this is at most (2^64)^n times `b`. That the words are equally
likely and independent is an assumption on the `rand` crate, outside the model.
`PathSpec.v`: the numbers of nodes kept on both sides of a cursor.
`WorkSpec.v`: what a pop pays, and the archive points seen from a cursor.
`SkipStoreSpec.v`: scripts on several skiplists, one list of bindings each, and the cells they
write, from the script alone.
`CellSpec.v`: the cells of a store whose contents are other than before.
`IterMemoSpec.v`: iterators a program can hold, and what a fold over one meets.
`UniqueIncSpec.v`: runs of a computation on trees and skiplist cells, one after the other with the table
kept, over whatever the stores hold at each run.

`ExpStoreSpec.v`: the names a harness draws, the handles it computed on, and what it means that an
experiment over a store went as the one over immutable values.

## 5. Plan per property

* C01 — list refinement of `Stack`, by induction over op sequences.
* C02, C03, C04, C06 — refinement of `AStack` to atom lists with the invariant
  "archived vectors are non-empty"; op-sequence induction.
* C05 — for-all statement of what is computed, plus `_refuted` witness for the doc.
* C07, C08, C13, C19, C20 — simulation of `Raz` by the abstract zipper under the
  well-formedness invariant and the cursor link invariant (a clean cursor's
  parent really contains the cursor's tree); op-sequence induction; `unfocus`
  via content lemmas for `up`, `down_*` and `join`.
* C09, C10, C16, C17, C18 — induction along the descent of `focus`.
* C11, C12 — conventional levels are preserved by every operation; a
  conventional tree is the unique one with its in-order list.
* C14, C15 — metadata part of well-formedness.
* C21..C26, C41 — structural induction over trees.
* C27, C28 — induction on the number of archives (fuel) with the level bounds of
  the recursion as invariant.
* C29, C32, C34 (second half), C37, C45, C50, C52 — refutations by computed
  witnesses (findings), with for-all companions where possible.
* C30, C31 — direct.
* C33 — trailing zeros of a 64-bit word; counting by a bijection.
* C35, C36, C38, C39, C40 — cursor invariant over level-ordered forests.
* C42, C43 — invariant "entry i of a path points to the most recent older path
  that agrees on the first i bits and differs at bit i"; refinement to a map.
* C44 — direct.
* C46 — refinement to lists, structural.
* C47, C48 — homomorphism lemma of C22 applied to the example closures.
* C54..C60 — the fold theorems C24/C25 applied to the example closures; a relation
  between an accumulator and a list that push, pop and archive keep.
* C49, C50, C61..C67 — loop invariant over the generated streams; an edit is a session
  of the Raz at a focus; induction over histories.
* C68 — direct.
* C51, C53 — store model, heap relation between store and pure values, framing
  by disjoint names.

* C69 — every table entry holds a value the plain computation gives.
* C70, C71 — invariant: the table holds the entries of every node of the previous
  tree; a node is entered only if its parent is new; a conventional tree is determined
  by its sequence, so a node is new only if its span touches the edit. The fold from
  left to right is a bottom-up fold over the tree annotated with accumulators.
* C72 — computed witnesses.
* C73 — every store action writes only in its own namespace and answers the same over a
  larger store; the relation of C53 allows handles into several namespaces.
* C74..C77 — induction over the loop; one step of C61 for each edit.
* C78 — the harness draws every name once, so the histories of C70 are orderly.
* C79 — invariant: wherever the recorded cells hold, the recorded result is the plain
  answer. For programs, together with the simulation of C53.
* C80 — with all cells in one namespace the handle and the recorded cells are determined
  by the tree, so both engines run in step and C70, C71 carry over.

All properties are expressible; none is planned as not applicable.
* C83 — the count lemma behind C14 without the bound; induction on the number of joins.
* C84, C85 — loop invariants over the two sequences of times.
* C86..C89 — direct; C86 by computation with the element type left open.
* C90 — a generic recursion with two memoised calls (MemoTwo.v), of which both builders are
  instances; sound tables.
* C91 — which calls one conversion makes is read off the sequence of archive points: a
  call depends on a segment of the stack and its bound (MemoFromWork.v).
* C92 — the invariant `sim` of sessions fixes the spines kept, and with conventional levels the
  spine of a tree is what is seen from its end (RazPath.v).
* C93 — sums over all sequences of words, not a probability theory. How many words give a
  level at most l is computed bit by bit; the recurrences for the two sums have closed
  forms, bounded by Bernoulli's inequality below log2 n (Chance.v).
* C94 — C70 and C91 under the sums of C93; the tree, the change and the history may depend on
  the words in any way, as long as the levels before and after the change are theirs.
* C95 — a cell is fixed by its node, so only cells of new nodes differ, and C70 bounds these;
  outside the names of tree and program nothing is written (C53). Only the bound on loops (fuel)
  differs between runs: more of it changes nothing but running out (StoreFuel.v, also C53).
* C96 — direct; `HashMap` equality is modelled by its documentation.
* C97, C98 — WorkModel.v repeats the functions of tree_cursor.rs and raz.rs that move a cursor
  with a count of the moves (WorkFacts.v: forgetting the count gives the functions of the main
  model, so C97 is about these). Unfocusing is bounded along the invariants of C92; `join`
  climbs and descends spines whose lengths are numbers of points seen (WorkCursor.v,
  WorkProofs.v). C98 is C97 under the sums of C93.
* C99 — invariant: wherever the cells recorded by an entry hold, its result reads as the mapped
  tree and its names are those of the tree. C100 — as C80, both engines run in step; the results
  on record for the branches that are met again are part of the latest result, so still there.
* C102 — as C99: wherever the cells recorded by an entry hold, its result reads as the call
  would make it from immutable values. C103 — what an entry on record promises, put for every
  store in which the namespace of the results is as the runs left it: the calls for a part that is
  met again are all on record, with handles whose cells still hold. As C91 the calls not on
  record are those of new points and of points seen from them; the proof does not go through the
  pure table, as arguments are compared as handles here.
* C104 — C103, with the trees made found to be in the namespace of the results (IncFromCost.v,
  `results`), then C80 and C100.
* C105 — simulation of the skiplist of immutable values (C42): the cells reached from all handles
  are among those written, and the next one is not; for scripts that overwrite, the invariant is
  only that cells refer to written ones, of the right shape and with pairs that were bound.
  C106 — the same, following the fold of C55.
* C108 — an entry is good if wherever the recorded cells hold, the plain call answers the recorded
  result and writes nothing new (cells compared pointwise). This is kept by read, write, call and
  sequence, so a hit may stand for the call; the plain computation is that of C106.
* C109 — compared with the memoised fold over immutable trees whose accumulator is the list of
  leaves met (C71). In the first run neither finds an entry, and what an entry saw is in the cells
  that the leaves so far make from no cells. In the second, cells of the first run are only
  rewritten with what they hold as long as the leaves met agree, so a hit of one fold is a hit of
  the other.
* C111 — as C99, for any fold whose node function writes at most the cell of its node: wherever
  the cells recorded by an entry hold, its result reads as the tree that the pure fold makes.
  What that is, is C47 and C48. C112 — as C100: in step with the fold over immutable trees (C70).
  A result keeps the cells of the results below it, as leaves have no branches, so those of the
  latest run are all in place until their names are written again.
* C113 — every entry stands for the writes of a plain run of the same call: where what it recorded
  holds, doing the writes again changes nothing. Each node writes at most the cell of its name, so
  with distinct names all writes are in place at the end, and the accumulator reads by induction as
  the plain one. C114 — in step with the fold over immutable trees, whose accumulators are handles.
  After a named node the handle is the same whatever was pushed before, so a change does not spread
  to the right (LrReset.v): the bound is that of C70, not of C71. What the latest run wrote is in
  place, so an entry found in one table is found in the other.
* C115 — instance of the lemma behind C113, the accumulator being a pair of a stack in cells and the
  number being read, or a panic. C116 — the lemma behind C114 asks that the accumulators agree at
  the archive points after the change; a sign makes the current part of the stack non-empty, so the
  next point replaces it by a cell of known name, and the number read then depends only on what
  follows the sign.
* C117 — the fold for any closure built of cell reads, cell writes and pure steps: an entry that holds
  is one whose plain computation gives the recorded result on the cells as they are, by replaying the
  record. So a run does what the plain fold over cells does, and that keeps the numbers in cells named
  at points already passed, which no later point with another name writes.
* C118 — C115, then C102 in the store that has the cells of the token stack, then C117 for the tree so
  made: that is binary, and its names are among those of the stack, which are among those of the text.
* C119 — the harness over the store goes as over immutable values whatever is computed (C107 for a fold
  that gives nothing), so each handle reads as a tree that meets the hypotheses of C118 and has the
  characters of the edited list; the runs of the adder only write its own memory, so doing them after
  each edit or all at the end is the same.
* C120 — as C119, with C113 for the run after each edit. C121 — the runs are a history in which nobody
  else writes the cells of the fold, and each edit puts one batch between what was there, so C114 applies
  to every run with those before it as its history.
* C110 — answers as for C69. Entries are set on the way back and looked up on the way there, so in
  a first run nothing is found, and the last to set an entry is the first node of that name. Folds that
  never come to a node of that name leave its entry alone.
* C107 — each edit is run in the part of the store in the harness's namespace, where focus,
  pushes and unfocus are simulated as in C70, and lifted to the whole store by monotonicity; the
  computations are one sequence of memoised runs as in C79, with logs as long as those over
  immutable trees, so the bounds of C78 carry over.
* C101 — each test is a script for C07, C09, C16, C24 or C42.
* C81, C82 — simulation as for C53: post-order writing only touches names already
  read. For a stack, the names consumed are those that have become nodes, so either none
  of its cells is in the namespace or reading it meets a node.

## 6. Disagreements found between documentation and code

(see the `_refuted` theorems; updated as the work proceeds)

* C05: doc of `AStack::active_len` says it includes archived data; it does not.
* C10: an index beyond the end gives `None` or a panic depending on whether the
  tree has an archive point.
* C29: `memo_from` of a just-archived stack creates an empty leaf; `fold_up`
  then panics and `pop_*` misses elements.
* C32: `archive_left(0, ..)` makes later computations lose elements.
* C34: `good_levels` checks the mirrored convention.
* C37: comment in `Tree::new` that bad levels do not affect correctness.
* C45: `Trie::union` of two non-empty tries always panics.
* C97: a peek where the last element has been popped walks to the next leaf and forgets the way;
  repeated peeks can each cost as much as the whole tree is high.
* C96: `Trie` equality compares hashes that depend on the iteration order of a `HashMap`, so
  tries made from one map may be unequal.
* C50: the Vec and IRaz harnesses insert batches in opposite orders, and draw place
  and batch in opposite orders.
* C49: the last archive point of `inc_init` and its name are lost if the gauge
  divides the size. C61: inserting into an empty harness panics.
* C62: the running number of elements starts at 0 after `inc_init`, so archive
  points can be up to almost two gauges apart.
* C65: the name-indexed harness cannot insert if no name is in the tree.
* C66: a harness made by `inc_from` draws names again from 0 and can repeat a name.
* C52: a named cell is overwritten through every handle to it. Pushing a name in use
  changes older stacks; pushing the name of a stack's own head makes iteration
  endless; peeking at a focused clone of a named tree removes elements from the
  original; `up_discard` does not undo changes to named nodes that were re-made.
* C111: reversing a reversed tree in the namespace where it was made overwrites it: its handle then
  reads as the first sequence.
* C116: without a plus sign after the change the bound fails: a number without end is passed through
  all later points (`C116_no_sign_refuted`: all 13 nodes run where the bound is 7).
* C113: the accumulator made by a run does not outlast the next run: the cells are written again
  under the same names, and the older handle then shows parts of the newer list.
* C110: the iterator passed to the memo of `fold_out` holds all trees above it. After a change that
  is in one of them nothing is reused, even where the rest and the accumulator are the same.
* C101: test_name_indexes would fail for the last value with an archive point after every element.
* C68: `extend_rev` also reverses the elements already active.
* C47: reversing a tree breaks the level convention when levels repeat.
* C56: the native maximum panics on no elements, the tree versions give `None`.
* C58: the adder's tokenizer reads the digit that exceeds 99999 twice; the
  reference tokenizer drops a number at the end of the text.
* C72: two folds (or maps) with different functions over one tree in one namespace
  share memo entries, the second one answers with the results of the first. The tests
  wrap each computation in `ns`; the documentation does not ask for it.
* C73: editing in a namespace leaves the original alone, as src/lib.rs says. The
  converse fails: the version shares what it did not touch, so later edits of the
  original show in it. A second version in the same namespace replaces the first.
* C76: all examples compare an experiment on `EvalVec` with one on `EvalIRaz` that inserts
  batches; by C50 the two work on different data after the first edit.
* C81: `map` in the namespace of its argument, if the root is named, overwrites the
  argument: the result is the same cell.
* C82: `memo_from` makes its nodes under the names of the stack's cells. In the namespace
  of the stack this destroys the stack, which was only borrowed.
* C83: `Count` wraps. `join` shares, so 64 joins make a tree of 2^64 elements with count 0,
  in which `focus` refuses index 1.
* C84: the report of the experiments names the last cross over even if the incremental
  version falls behind again, and says "off chart" if it was ahead from the start.
* C85: the loops that write the data files stop one short: there are changes + 1 times.
* C86: the names in the diagram of `iraztree_depth_4` are not those of the code (the root
  `t` is named `rl`, and so on).
* C87: `l_inc` of the greatest level wraps to the least in release builds.
* C89: `union_rec` pairs the children of one branch with each other, and `split_map` tests bit
  len + 1 where `find` goes by bit len. Both are unreachable by C45.
* C91: `memo_from` at the head starts with the bound 2^32-1. A new archive point of that level
  passes the same bound on, so below it a conversion is reused where one of a lower level
  would repeat the points seen from the top (`C91_largest_level`).
* C92: the path to the right of a cursor is bounded by the levels (64), the one to the left is
  not: nodes of equal level are chained to the right, so a session that gives the same level
  to all its archive points makes a list (`C92_left_path_short_refuted`).
* C105: a clone of a skiplist is not an old version to go back to: both go on with the same name
  and number, so what is put into one shows in the other. Archiving with a name used before,
  also with the name given to `emp`, loses bindings.
* C106: unique_elms misses elements if a name occurs twice in the tree.
* C107: two `EvalIRaz` in one namespace count their names from 0 both, so making the second
  overwrites cells of the first one's tree; in different namespaces they do not meet. `inc_from` of a tree
  starts from 0 as well: after two insertions elements are there twice and others are lost.
