{"id": "C01", "title": "Persistent stack is a LIFO list", "statement": "Stack::push/peek/pull/name/iter behave as cons/head/tail/name-of-top/list of an immutable list: after any sequence of pushes and pulls the iterator yields exactly the live elements, newest first, each paired with the name it was pushed with.", "quantifier": "all finite sequences of push/pull, all elements, all (optional) names", "why_tests_cant": "tests push two or three fixed elements; the claim ranges over every interleaving and length", "anchors": ["src/stack.rs: Stack::push", "src/stack.rs: Stack::peek", "src/stack.rs: Stack::pull", "src/stack.rs: Stack::iter", "src/stack.rs: push_onto", "src/stack.rs: Iter::next"]}
{"id": "C02", "title": "Archive stack is a LIFO stack regardless of archiving", "statement": "Any sequence of push, pop, pop_meta, archive and peek on an AStack returns the same elements as the same sequence on a plain list stack in which archive does nothing, and never panics.", "quantifier": "all operation sequences from AStack::new / with_capacity / From<Vec>, all names and metadata", "why_tests_cant": "the hidden state is the partition into archived vectors; tests try a handful of partitions only", "anchors": ["src/archive_stack.rs: AStack::push", "src/archive_stack.rs: AStack::pop", "src/archive_stack.rs: AStack::pop_meta", "src/archive_stack.rs: AStack::archive", "src/archive_stack.rs: AStack::peek", "src/archive_stack.rs: AStack::retrieve"]}
{"id": "C03", "title": "Archive metadata is delivered exactly once, with the right element group", "statement": "Repeatedly calling next_archive returns the active vector and then every archived vector exactly once, most recent first, each time together with the metadata given when the next older vector was archived; pop_meta reports that metadata exactly on the first pop that opens an archive; name() always names the most recent unopened archive.", "quantifier": "all operation sequences, all metadata and names", "why_tests_cant": "off-by-one pairing of vectors with metadata is only visible with many archives and mixed pops", "anchors": ["src/archive_stack.rs: AStack::next_archive", "src/archive_stack.rs: AStack::pop_meta", "src/archive_stack.rs: AStack::name"]}
{"id": "C04", "title": "archive() on an empty active vector is a no-op that reports false", "statement": "archive returns true iff there was at least one unarchived element; when it returns false nothing observable changes; when it returns true the whole active vector becomes the newest archive and active_len becomes 0.", "quantifier": "all reachable archive stacks", "why_tests_cant": "requires every reachable state, not chosen ones", "anchors": ["src/archive_stack.rs: AStack::archive", "src/archive_stack.rs: AStack::archive_with_capacity"]}
{"id": "C05", "title": "active_len counts only unarchived elements", "statement": "active_len returns the number of elements pushed since the last archive that are still there, not the total promised by its doc comment ('the total item count of the AStack, including archived data').", "quantifier": "all reachable archive stacks; the documented reading is refuted by a witness", "why_tests_cant": "tests never call it on a stack with an archive", "anchors": ["src/archive_stack.rs: AStack::active_len"]}
{"id": "C06", "title": "Draining an archive stack yields all of it in LIFO order", "statement": "Iterating an AStack (into_iter) terminates and yields every element exactly once, last pushed first.", "quantifier": "all reachable archive stacks", "why_tests_cant": "unbounded number and size of archives", "anchors": ["src/archive_stack.rs: Iter::next", "src/archive_stack.rs: AStack::into_iter"]}
{"id": "C07", "title": "Raz editing is a list zipper", "statement": "For any sequence of push_left/right, pop_left/right, peek_left/right, archive_left/right, a Raz behaves as a pair of lists (elements left of the cursor, elements right of the cursor): push adds next to the cursor, pop removes and returns the element next to the cursor, peek returns what pop would and changes nothing, archive changes neither list.", "quantifier": "all operation sequences, all start states reachable through new/focus/focus_left, all levels >= 1, all names, all metadata types", "why_tests_cant": "the zipper state is spread over two stacks and two tree cursors with dirty flags; the state space is unbounded", "anchors": ["src/raz.rs: Raz::push_left", "src/raz.rs: Raz::pop_left", "src/raz.rs: Raz::peek_left", "src/raz.rs: Raz::archive_left", "src/raz.rs: Raz::push_right", "src/raz.rs: Raz::pop_right", "src/raz.rs: Raz::peek_right"]}
{"id": "C08", "title": "unfocus keeps the sequence", "statement": "unfocus never panics and yields a tree whose left-to-right elements are exactly the elements left of the cursor followed by those right of the cursor.", "quantifier": "all reachable Raz values (levels >= 1)", "why_tests_cant": "four-way case analysis over empty/non-empty stacks and forests times unbounded tree shapes", "anchors": ["src/raz.rs: Raz::unfocus", "src/tree_cursor.rs: Cursor::join", "src/tree_cursor.rs: Cursor::up"]}
{"id": "C09", "title": "Count-focus lands at the requested index", "statement": "For a tree of n elements (n < 2^64) and i <= n, focus(i) returns Some(raz) with exactly the first i elements to the left of the cursor; focus(usize::MAX) is the end of the sequence; on an empty tree every index succeeds.", "quantifier": "all reachable trees, all indexes <= n", "why_tests_cant": "every index against every tree shape; tests use one tree", "anchors": ["src/raz.rs: RazTree::focus", "src/raz_meta.rs: Count::navigate", "src/raz_meta.rs: Count::split_vec"]}
{"id": "C10", "title": "Out-of-range Count-focus", "statement": "For i > n (i /= usize::MAX) focus(i) returns None when the sequence has at least one archive point, and panics when the sequence is one single unarchived run; it never silently succeeds on a non-empty tree.", "quantifier": "all reachable non-empty trees, all indexes > n", "why_tests_cant": "tests do not cover out-of-range indexes; the doc only says 'fail in some appropriate way'", "anchors": ["src/raz_meta.rs: Count::navigate", "src/raz_meta.rs: Count::split_vec", "src/raz.rs: RazTree::focus"]}
{"id": "C11", "title": "focus then unfocus is the identity", "statement": "For every tree built by unfocus or memo_from with levels >= 1, t.focus(i).unfocus() is exactly t: same elements, same partition, same levels and names, same metadata, same shape.", "quantifier": "all canonical trees, all indexes i <= n", "why_tests_cant": "identity of the whole structure over unbounded shapes", "anchors": ["src/raz.rs: RazTree::focus", "src/raz.rs: Raz::unfocus", "src/tree_cursor.rs: Cursor::split", "src/tree_cursor.rs: Cursor::join"]}
{"id": "C12", "title": "Canonical form: shape depends only on the archive points", "statement": "Two trees produced by any sequences of Raz operations (levels >= 1), memo_from included, that have the same elements with the same archive points (level, name) in the same places are equal as structures.", "quantifier": "all pairs of operation histories", "why_tests_cant": "quantifies over pairs of histories; the doc promises it ('regardless of data or order of operations')", "anchors": ["src/level_tree.rs: module doc", "src/tree_cursor.rs: Cursor doc", "src/tree_cursor.rs: Cursor::join", "src/raz.rs: Raz::unfocus", "src/raz.rs: RazTree::memo_from"]}
{"id": "C13", "title": "Archive points survive editing", "statement": "unfocus keeps every archive point (level and name) that still has an element next to the cursor on one side; when the cursor has archive points on both sides and no element between them exactly one of the two is dropped, and an archive point at the very end of the sequence is dropped; no other archive point is lost, duplicated, reordered or renamed. (A name n given to archive_left/right appears in the tree as the pair (n,\"tree\").)", "quantifier": "all reachable Raz values", "why_tests_cant": "the single test of names performs one edit script", "anchors": ["src/raz.rs: Raz::unfocus", "src/raz.rs: Raz::archive_left", "src/raz.rs: tests::test_names_many_edits"]}
{"id": "C14", "title": "Metadata is always accurate: Count", "statement": "meta() of any RazTree with Count metadata equals the number of its elements modulo 2^64 (exactly, if below 2^64).", "quantifier": "all reachable trees", "why_tests_cant": "cached counts are updated incrementally along every path; a stale cache is only visible for particular histories", "anchors": ["src/raz.rs: treetop_meta", "src/raz.rs: TreeData::rebuild", "src/raz_meta.rs: Count"]}
{"id": "C15", "title": "Metadata is always accurate: Names", "statement": "meta() of any RazTree with Names metadata contains exactly the names of its archive points.", "quantifier": "all reachable trees", "why_tests_cant": "same as for Count", "anchors": ["src/raz.rs: treetop_meta", "src/raz.rs: TreeData::rebuild", "src/raz_meta.rs: Names"]}
{"id": "C16", "title": "Focus by name", "statement": "If a name labels exactly one archive point of the sequence then focus(name) returns Some(raz) with the cursor exactly at that archive point (everything before it on the left, everything after it on the right); if it labels none, focus(name) returns None when the sequence has an archive point. (Labels are the names as they appear in the tree, i.e. (n,\"tree\") for an n given to archive_left/right.)", "quantifier": "all reachable trees with Names metadata, all names", "why_tests_cant": "needs all trees and all positions", "anchors": ["src/raz_meta.rs: Names::navigate", "src/raz.rs: RazTree::focus"]}
{"id": "C17", "title": "Position Left/Right focus ends", "statement": "With Position metadata (() and Names) focusing Left puts the cursor before the first element, Right after the last element; Center on () metadata always panics.", "quantifier": "all reachable non-empty trees", "why_tests_cant": "all shapes", "anchors": ["src/raz_meta.rs: Position", "src/raz_meta.rs: RazMeta for ()", "src/raz_meta.rs: Names::navigate"]}
{"id": "C18", "title": "focus_left is the start of the sequence", "statement": "focus_left never panics and yields a Raz with nothing to the left of the cursor and the whole sequence to the right.", "quantifier": "all reachable trees, all metadata types", "why_tests_cant": "all shapes", "anchors": ["src/raz.rs: RazTree::focus_left"]}
{"id": "C19", "title": "peek is what pop would return", "statement": "peek_left/peek_right return exactly the element the next pop_left/pop_right would return, None iff there is no element on that side, and do not alter the Raz.", "quantifier": "all reachable Raz values", "why_tests_cant": "peek re-implements the tree descent independently of pop", "anchors": ["src/raz.rs: Raz::peek_left", "src/raz.rs: Raz::pop_left", "src/raz.rs: Raz::peek_right", "src/raz.rs: Raz::pop_right"]}
{"id": "C20", "title": "push reports the number of unarchived elements", "statement": "push_left/push_right return the number of elements in the active run on that side of the cursor, i.e. one more than before, where the run starts again at 0 after an effective archive.", "quantifier": "all reachable Raz values", "why_tests_cant": "depends on full history", "anchors": ["src/raz.rs: Raz::push_left", "src/raz.rs: Raz::push_right", "src/archive_stack.rs: AStack::active_len"]}
{"id": "C21", "title": "fold_up computes the associative reduction of the sequence", "statement": "For an associative bin, fold_up(init,bin) is None iff the sequence is empty and otherwise equals the reduction of the mapped elements from left to right; it does not depend on the tree shape and does not panic.", "quantifier": "all reachable trees, all init, all associative bin", "why_tests_cant": "independence of shape needs all shapes", "anchors": ["src/raz.rs: RazTree::fold_up", "src/level_tree.rs: Tree::fold_up_meta"]}
{"id": "C22", "title": "fold_up_gauged and fold_up_nl see every element and archive point once, in order", "statement": "If bin(l,lev,name,r) interprets concatenation with an archive point in between (a homomorphism), fold_up_gauged / fold_up_nl return the value of the whole annotated sequence.", "quantifier": "all reachable trees, all homomorphisms", "why_tests_cant": "same as fold_up", "anchors": ["src/raz.rs: RazTree::fold_up_gauged", "src/raz.rs: RazTree::fold_up_nl"]}
{"id": "C23", "title": "fold_lr is the left fold", "statement": "fold_lr(init,bin) equals the left fold of bin over the elements in sequence order, for any bin (no associativity required).", "quantifier": "all trees, all accumulators and functions", "why_tests_cant": "all shapes and functions", "anchors": ["src/raz.rs: RazTree::fold_lr", "src/level_tree.rs: Tree::fold_lr_meta"]}
{"id": "C24", "title": "fold_lr_meta visits elements and archive points in sequence order", "statement": "fold_lr_meta applies bin to every element and meta to every archive point's (level,name), each exactly once, in sequence order.", "quantifier": "all trees, all functions", "why_tests_cant": "all shapes", "anchors": ["src/raz.rs: RazTree::fold_lr_meta", "src/level_tree.rs: Tree::fold_lr_meta"]}
{"id": "C25", "title": "fold_lr_archive gives each run the name of the archive point before it", "statement": "fold_lr_archive folds each run's elements, then calls finbin with the name of the archive point immediately preceding the run ('start' for the first run), then meta with the level of the archive point following it.", "quantifier": "all trees, all functions", "why_tests_cant": "name carrying is threaded through recursion; tests check one accumulator", "anchors": ["src/raz.rs: RazTree::fold_lr_archive", "src/level_tree.rs: Tree::fold_lr_meta"]}
{"id": "C26", "title": "map is elementwise and structure preserving", "statement": "map(f) yields a tree with f applied to each element in order, the same archive points (levels, names) and shape, with correct metadata of the target type.", "quantifier": "all reachable trees, all f, all target metadata types", "why_tests_cant": "all shapes", "anchors": ["src/raz.rs: RazTree::map", "src/level_tree.rs: Tree::map"]}
{"id": "C27", "title": "AtTail conversion keeps the sequence", "statement": "RazTree::memo_from(&AtTail(stack)) yields a tree with the stack's elements bottom to top with its archive points in place, under the stack's own names (not paired with \"tree\"); it is canonical when levels are in 1..u32::MAX-1; it never panics for levels below u32::MAX.", "quantifier": "all reachable archive stacks with levels below u32::MAX", "why_tests_cant": "recursive descent driven by random levels; internal asserts", "anchors": ["src/raz.rs: MemoFrom<AtTail>"]}
{"id": "C28", "title": "AtHead conversion keeps the sequence", "statement": "RazTree::memo_from(&AtHead(stack)) yields a tree with the stack's elements top to bottom with its archive points in place, under the stack's own names (not paired with \"tree\"); it is canonical and never panics for levels >= 1.", "quantifier": "all reachable archive stacks with levels >= 1", "why_tests_cant": "same", "anchors": ["src/raz.rs: MemoFrom<AtHead>"]}
{"id": "C29", "title": "Converting a just-archived stack breaks the result", "statement": "If the stack's active vector is empty but it has archived data (archive was the last call), memo_from (AtTail or AtHead) produces a tree on which fold_up panics and on which pop_left/pop_right after focusing may return None although elements remain; the expected totality is refuted.", "quantifier": "exists: witness stack and operation; plus for-all: fold_up panics on every such stack", "why_tests_cant": "no test converts a just-archived stack and then folds", "anchors": ["src/raz.rs: MemoFrom<AtTail>", "src/raz.rs: RazTree::fold_up", "src/raz.rs: Raz::pop_left"]}
{"id": "C30", "title": "RazTree::join concatenates", "statement": "RazTree::join(a,lev,name,b) is None iff a or b is empty; otherwise its elements and archive points are those of a, then (lev,name), then those of b. It keeps canonical form iff a's top level < lev and b's top level <= lev.", "quantifier": "all reachable trees, all levels", "why_tests_cant": "all shapes", "anchors": ["src/raz.rs: RazTree::join", "src/raz.rs: bin"]}
{"id": "C31", "title": "from_vec / empty / is_empty", "statement": "from_vec(v) is None iff v is empty, otherwise a tree with exactly v and no archive point; empty() has no element; is_empty is true iff there are no elements.", "quantifier": "all vectors, all reachable trees", "why_tests_cant": "is_empty must agree with content in every reachable state (e.g. after popping everything)", "anchors": ["src/raz.rs: RazTree::from_vec", "src/raz.rs: RazTree::empty", "src/raz.rs: RazTree::is_empty", "src/raz.rs: Raz::unfocus"]}
{"id": "C32", "title": "Level 0 archive points lose data", "statement": "With level 0 the claims about unfocus, meta and fold_up are false: there is a short script with archive_left(0,..) after which unfocus yields a tree whose Count and fold_up omit elements. Hence the precondition level >= 1 in the other properties.", "quantifier": "exists: witness script", "why_tests_cant": "the API accepts any u32 and no test uses level 0", "anchors": ["src/raz.rs: Raz::archive_left", "src/tree_cursor.rs: Cursor::join", "src/level_tree.rs: gen_branch_level doc"]}
{"id": "C33", "title": "Generated levels are in 1..=64", "statement": "gen_branch_level (and inc_level, NegBin::rand) returns a level between 1 and 64 for every 64-bit random value, 64 only for inputs that are 0 after the shift; level k<64 is returned by exactly 2^(64-k) of the 2^64 inputs.", "quantifier": "all 2^64 random values", "why_tests_cant": "2^64 inputs", "anchors": ["src/level_tree.rs: gen_branch_level", "src/lib.rs: inc_level", "src/trees.rs: NegBin::rand"]}
{"id": "C34", "title": "good_levels does not check the convention the cursor uses", "statement": "good_levels accepts exactly trees with left child level <= parent and right child level < parent, whereas join/up/memo_from require and produce left < parent, right <= parent: canonical trees with two equal adjacent levels are rejected, and some accepted trees are mangled by down/up moves.", "quantifier": "for-all characterisation plus existential witnesses for both mismatches", "why_tests_cant": "tests use distinct levels only", "anchors": ["src/level_tree.rs: good_levels", "src/tree_cursor.rs: Cursor::up", "src/tree_cursor.rs: Cursor::join", "src/trees.rs: LevelTree doc"]}
{"id": "C35", "title": "Moving a cursor never changes the tree", "statement": "On a tree whose levels follow the convention (left < parent, right <= parent), any sequence of down_left/down_right (Force::No or Force::Yes) and up moves, followed by going up to the root, gives back exactly the original tree.", "quantifier": "all conventional trees, all move sequences", "why_tests_cant": "sequences of moves of any length on trees of any shape", "anchors": ["src/tree_cursor.rs: Cursor::down_left_force", "src/tree_cursor.rs: Cursor::down_right_force", "src/tree_cursor.rs: Cursor::up"]}
{"id": "C36", "title": "up undoes down and reports the direction", "statement": "On such trees, after a successful down_left (resp. down_right) up returns Right (resp. Left) and restores the cursor exactly; and after up returned Left (Right), forced down_right (down_left) returns to the previous node.", "quantifier": "all conventional trees, all cursor positions", "why_tests_cant": "direction is recomputed from levels, not stored", "anchors": ["src/tree_cursor.rs: Cursor::up", "src/tree_cursor.rs: UpResult"]}
{"id": "C37", "title": "Bad levels do affect correctness", "statement": "The comment in Tree::new ('poor levels ... should not otherwise affect correctness') is refuted: there is a tree and a down, down, up move script after which the cursor's underlying sequence has changed.", "quantifier": "exists: witness tree and moves", "why_tests_cant": "tests only use good levels", "anchors": ["src/level_tree.rs: Tree::new", "src/tree_cursor.rs: Cursor::up"]}
{"id": "C38", "title": "split and join are inverse on content and canonical on shape", "statement": "Cursor::join(l,lev,name,data,r) keeps all nodes of l in order, then the new node, then all nodes of r, never panics, and if l and r are conventional so is the result; splitting at a node and joining the parts with the same level/name/data gives back the same tree.", "quantifier": "all cursors over conventional trees", "why_tests_cant": "all shapes and positions", "anchors": ["src/tree_cursor.rs: Cursor::split", "src/tree_cursor.rs: Cursor::join"]}
{"id": "C39", "title": "Right iterator enumerates the remainder in order", "statement": "The right iterator from into_iters yields exactly the data of the nodes strictly right of the cursor node, in order, then None forever; fold_out is the left fold over these.", "quantifier": "all conventional trees, all cursor positions", "why_tests_cant": "all shapes and positions", "anchors": ["src/tree_cursor.rs: Cursor::into_iters", "src/tree_cursor.rs: IterR::next", "src/tree_cursor.rs: IterR::fold_out"]}
{"id": "C40", "title": "Discarding moves remove exactly one node and one branch", "statement": "down_left_force(Discard) (resp. right) removes from the underlying sequence exactly the focused node and its right (resp. left) branch; everything else keeps its order when moving up.", "quantifier": "all cursors", "why_tests_cant": "all shapes and positions", "anchors": ["src/tree_cursor.rs: Cursor::down_left_force", "src/tree_cursor.rs: Cursor::down_right_force", "src/tree_cursor.rs: Force::Discard"]}
{"id": "C41", "title": "Level-tree folds and maps", "statement": "Tree::fold_lr is the left fold of node data in order, fold_lr_meta passes each internal node its own level and name; Tree::fold_up is the structural recursion; Tree::map keeps shape, levels and names.", "quantifier": "all trees, all functions", "why_tests_cant": "all shapes", "anchors": ["src/level_tree.rs: Tree::fold_up", "src/level_tree.rs: Tree::fold_lr", "src/level_tree.rs: Tree::map"]}
{"id": "C42", "title": "Skiplist is a finite map", "statement": "For any hash function and any sequence of ext/put/rem/archive on a Skiplist, get(k) returns the most recent mapping of k (None after rem or if never set), and ext returns the previous mapping, even when different keys collide on the examined hash bits or on the entire hash.", "quantifier": "all operation sequences, all hash functions, all path lengths 1..63", "why_tests_cant": "collisions are unreachable with a fixed good hash in tests", "anchors": ["src/skiplist.rs: Skiplist::ext", "src/skiplist.rs: Skiplist::get", "src/skiplist.rs: build_path_step", "src/skiplist.rs: build_path_rec"]}
{"id": "C43", "title": "Skiplist path lengths at the edges", "statement": "Path length 0 makes ext and get panic; path length 64 panics in a debug build for some hashes (shift by 64), although shorter lengths never do.", "quantifier": "for-all for length 0; existential witness for 64", "why_tests_cant": "needs two keys whose hashes differ only in the last bit", "anchors": ["src/skiplist.rs: make_mask", "src/skiplist.rs: build_path_step"]}
{"id": "C44", "title": "Trie lookups and unions", "statement": "find on from_hashmap(m) returns m's mapping for every hash argument; union with the empty trie is the identity on either side.", "quantifier": "all maps, all keys, all hashes", "why_tests_cant": "all inputs", "anchors": ["src/trie.rs: Trie::find", "src/trie.rs: Trie::from_hashmap", "src/trie.rs: Trie::union"]}
{"id": "C45", "title": "Trie union of two non-empty tries panics", "statement": "The union of two tries made by from_hashmap panics for every pair of maps (mask of length 0), so 'union contains both maps' is refuted.", "quantifier": "for all pairs of maps", "why_tests_cant": "there is no test of union at all", "anchors": ["src/trie.rs: Trie::union_rec", "src/trie.rs: Trie::split_map", "src/trie.rs: make_mask"]}
{"id": "C46", "title": "Accumulator lists are LIFO stacks", "statement": "For the List, RcList, VecList and RcVecList accumulators, and likewise Vec, archive stacks and Razs (levels >= 1) used through the same interface, any sequence of seq_push/seq_pop/archive returns the elements of a plain LIFO stack; archiving changes no later result; seq_pop never panics.", "quantifier": "all operation sequences, all names", "why_tests_cant": "archive wrappers nest arbitrarily", "anchors": ["eval/src/accum_lists.rs: List", "eval/src/accum_lists.rs: RcList", "eval/src/accum_lists.rs: VecList", "eval/src/accum_lists.rs: RcVecList"]}
{"id": "C47", "title": "Tree reversal example", "statement": "The fold_up_gauged/join computation of the reverse example yields the reversed sequence with archive points reversed as well.", "quantifier": "all reachable trees", "why_tests_cant": "all shapes; random tests only", "anchors": ["eval/examples/reverse.rs: main2", "src/raz.rs: RazTree::fold_up_gauged", "src/raz.rs: RazTree::join"]}
{"id": "C48", "title": "Tree filter example", "statement": "The fold_up_gauged/join computation of the filter example yields exactly the elements satisfying the predicate, in order.", "quantifier": "all reachable trees, all predicates", "why_tests_cant": "all shapes; random tests only", "anchors": ["eval/examples/filter.rs: main2", "src/raz.rs: RazTree::join"]}
{"id": "C49", "title": "Incremental initialisation of the IRaz harness", "statement": "EvalIRaz::inc_init(size,datagauge,namegauge) with datagauge,namegauge >= 1 never runs out of generated levels or names and produces a tree with exactly the generated elements in order, archived every datagauge elements.", "quantifier": "all sizes, gauges >= 1, all random streams", "why_tests_cant": "index arithmetic over all sizes and gauges", "anchors": ["eval/src/eval_iraz.rs: inc_init"]}
{"id": "C50", "title": "Batch insertion differs between the Vec and IRaz harness", "statement": "EvalIRaz::insert puts a batch at the cursor in generation order, EvalVec::insert in reverse order, so the two 'same' experiments compute on different sequences for batches >= 2; the expected equality is refuted.", "quantifier": "for-all characterisation of both, witness for the inequality", "why_tests_cant": "the harness compares times, never contents", "anchors": ["eval/src/eval_iraz.rs: insert", "eval/src/eval_vec.rs: insert"]}
{"id": "C51", "title": "Unnamed data is fully persistent", "statement": "In the mutable-store engine, operations that allocate without names never change what any previously obtained handle observes.", "quantifier": "all stores, all handles, all operation sequences without names", "why_tests_cant": "aliasing across arbitrary clones", "anchors": ["src/lib.rs: crate doc", "src/stack.rs: push_onto", "src/level_tree.rs: Tree::new"]}
{"id": "C52", "title": "Named data is mutable through clones", "statement": "In the mutable-store engine, pushing with a name already in use changes what an older clone observes; even a read-only peek on a focused clone of a named tree can change the original tree. Persistence for named data is refuted.", "quantifier": "exists: witness scripts", "why_tests_cant": "tests run in one structure at a time", "anchors": ["src/lib.rs: crate doc", "src/stack.rs: push_onto", "src/raz.rs: Raz::peek_left", "src/tree_cursor.rs: Cursor::up"]}
{"id": "C53", "title": "With distinct names the store engine and the pure engine agree", "statement": "As long as every name is used for at most one live node, every result of the mutable-store engine equals the result of the purely functional reading used for all other properties.", "quantifier": "all operation sequences with fresh names", "why_tests_cant": "relates two semantics over all histories", "anchors": ["src/stack.rs: push_onto", "src/level_tree.rs: Tree::new", "src/tree_cursor.rs: Cursor::up"]}
{"id": "C54", "title": "tree_to_list into any accumulator", "statement": "The tree_to_list computation leaves any accumulator that behaves as a plain stack (List, VecList, AStack, Vec, Raz) answering all later pushes, pops and archive calls as a stack holding the tree's elements, last on top.", "quantifier": "all reachable trees, all accumulators that are plain stacks, all later operation sequences", "why_tests_cant": "all shapes and all accumulator types; the example only measures time", "anchors": ["eval/examples/tree_to_list.rs: to_list_step", "eval/examples/tree_to_list.rs: to_list_meta", "eval/src/interface.rs: IFaceNew", "eval/src/interface.rs: IFaceSeq"]}
{"id": "C55", "title": "unique_elms builds exactly the set of elements", "statement": "The unique_elms computation never panics for path lengths >= 1 (below 64 in debug builds) and gives a skiplist whose get(k) is Some(()) exactly for the elements k of the tree, whatever the hash function does.", "quantifier": "all reachable trees, all hash functions, all path lengths in range", "why_tests_cant": "hash collisions; no assertion in the example", "anchors": ["eval/examples/unique_elms.rs: main2", "src/skiplist.rs: Skiplist::put", "src/raz.rs: RazTree::fold_lr_archive"]}
{"id": "C56", "title": "Four ways to compute the maximum agree", "statement": "On a non-empty tree the max example (fold_up_gauged), comp_max of EvalIRaz (fold_up), comp_max of EvalVec and the native iterator give the same element, the last of the greatest ones; on the empty tree the tree versions give None and the native version of the example panics.", "quantifier": "all reachable trees, all total preorders", "why_tests_cant": "ties are invisible with integer elements", "anchors": ["eval/examples/max.rs: main2", "eval/src/eval_iraz.rs: comp_max", "eval/src/eval_vec.rs: comp_max"]}
{"id": "C57", "title": "Adder tokens do not depend on tree or accumulator", "statement": "tokenize over a tree into any accumulator that is a plain stack gives the tokens (or the panic) of tokenize over the plain vector of characters; it panics exactly if some character is neither a digit nor plus nor comma.", "quantifier": "all reachable trees, all accumulators that are plain stacks", "why_tests_cant": "archive points inside numbers, all shapes", "anchors": ["eval/examples/adder.rs: tokenize_step", "eval/examples/adder.rs: tokenize_meta", "eval/examples/adder.rs: tokenize_final"]}
{"id": "C58", "title": "Adder tokens are the maximal digit runs, up to 99999", "statement": "When no number exceeds 99999 the tokens are the maximal digit runs, plus signs in place, and the reference tokenizer agrees once the text ends in a comma. A number of six digits is split with its last digit counted twice, and the reference tokenizer drops a number at the end of the text; so equality with the reference is refuted.", "quantifier": "all texts; for-all statements of the two failures", "why_tests_cant": "the only test text has small numbers and ends in plus", "anchors": ["eval/examples/adder.rs: tokenize_step", "eval/examples/adder.rs: reference::tokenize"]}
{"id": "C59", "title": "Incremental and plain adder pipelines agree", "statement": "Tokenizing a tree into an archive stack, converting it with memo_from(AtTail) and parsing it into an archive stack gives the numbers of the plain vector pipeline, which are those of the stack evaluation of the tokens, and of reference::parse.", "quantifier": "all reachable trees with levels below u32::MAX", "why_tests_cant": "the example compares one text", "anchors": ["eval/examples/adder.rs: main2", "eval/examples/adder.rs: parse_step", "eval/examples/adder.rs: reference::parse", "src/raz.rs: RazTree::memo_from"]}
{"id": "C60", "title": "The adder keeps the total", "statement": "The sum of the numbers the adder returns equals the sum of the numbers in the text modulo 2^32, whatever the plus signs do (also superfluous ones).", "quantifier": "all texts with numbers up to 99999", "why_tests_cant": "all texts", "anchors": ["eval/examples/adder.rs: parse_step"]}
{"id": "C61", "title": "A history of the IRaz harness is a history on a plain list", "statement": "After inc_init and any sequence of append and insert calls, EvalIRaz holds exactly the elements, and the coordinator the state, of the same calls on a plain list (place drawn first, then the batch, inserted in order); the sequence panics exactly where a batch is to be inserted into an empty sequence.", "quantifier": "all sizes, gauges >= 1, generators and histories below the counter limits", "why_tests_cant": "unbounded histories; contents are never compared", "anchors": ["eval/src/eval_iraz.rs: inc_init", "eval/src/eval_iraz.rs: insert", "eval/src/eval_iraz.rs: append"]}
{"id": "C62", "title": "Where the harness puts archive points", "statement": "append leaves the old sequence with all its archive points and adds the batch with an archive point after each element whose running number is a multiple of datagauge, named by the next number if it is a multiple of datagauge*namegauge, levels in the order generated, none at the very end. The claim that the gauge holds across inc_init and append is refuted, because the running number starts again at 0.", "quantifier": "all harness states, batches, gauges >= 1", "why_tests_cant": "archive points are invisible in the harness's output", "anchors": ["eval/src/eval_iraz.rs: append", "eval/src/eval_iraz.rs: inc_init", "eval/src/eval_iraz.rs: inc_empty"]}
{"id": "C63", "title": "Initialised alike and only appended to, the Vec and IRaz harness agree", "statement": "With the same coordinator, EvalIRaz and EvalVec hold the same elements and coordinator after inc_init and any number of appends; EvalVec::extend equals append.", "quantifier": "all sizes, gauges >= 1, lists of batches", "why_tests_cant": "the harness compares times only", "anchors": ["eval/src/eval_iraz.rs: append", "eval/src/eval_vec.rs: append", "eval/src/eval_vec.rs: extend", "eval/src/eval_vec.rs: inc_init"]}
{"id": "C64", "title": "Insertion by name", "statement": "EvalRazNameIndex::insert puts the batch directly in front of the archive point whose name is the drawn key, in whatever order the hash map lists its keys, leaving everything else; without any name in the tree it panics.", "quantifier": "all harness states, key orders, batches", "why_tests_cant": "hash map order is random; panic only for small inputs", "anchors": ["eval/src/eval_raz_name_index.rs: insert", "eval/src/eval_raz_name_index.rs: append"]}
{"id": "C65", "title": "Histories of the name-indexed harness", "statement": "Initialised with more than datagauge*namegauge elements, no history of insert and append panics (in particular never with 'bad edit location'), and the result is the initial list with the batches put in at some place or at the end; initialised with at most datagauge*namegauge elements the first insert panics.", "quantifier": "all sizes, gauges >= 1, histories, key orders", "why_tests_cant": "unbounded histories, random key order", "anchors": ["eval/src/eval_raz_name_index.rs: inc_init", "eval/src/eval_raz_name_index.rs: insert", "eval/src/eval_raz_name_index.rs: append"]}
{"id": "C66", "title": "Harness names are distinct", "statement": "No two archive points of a tree obtained by inc_init and any history share a name. For a harness made by inc_from of such a tree this is refuted: names start again at 0.", "quantifier": "all histories; witness for the failure", "why_tests_cant": "name clashes are silent", "anchors": ["eval/src/eval_iraz.rs: next_name", "eval/src/eval_iraz.rs: inc_from", "eval/src/eval_iraz.rs: insert", "eval/src/eval_iraz.rs: append"]}
{"id": "C67", "title": "Harness computations agree with the Vec harness", "statement": "On the same elements comp_fold, comp_fold_meta (with a metadata function that ignores it), comp_max, comp_tfold (associative) and comp_map of the Raz harnesses give the results of EvalVec, and a fold that conses gives that of comp_rev; comp_fold_meta, comp_fold_archive, comp_tfoldnl and comp_tfoldg give the values of the corresponding folds over the sequence with its archive points.", "quantifier": "all harness states, all functions", "why_tests_cant": "results are never compared", "anchors": ["eval/src/eval_iraz.rs: comp_fold", "eval/src/eval_iraz.rs: comp_fold_meta", "eval/src/eval_iraz.rs: comp_max", "eval/src/eval_iraz.rs: comp_tfold", "eval/src/eval_iraz.rs: comp_map", "eval/src/eval_vec.rs: comp_fold", "eval/src/eval_vec.rs: comp_map"]}
{"id": "C68", "title": "extend and extend_rev of the archive stack", "statement": "extend equals pushing the elements in turn. extend_rev equals replacing the active elements a by the new ones from last to first followed by a reversed; that it only adds the new ones reversed is refuted.", "quantifier": "all stacks and slices", "why_tests_cant": "only called on empty stacks in the crate", "anchors": ["src/archive_stack.rs: AStack::extend", "src/archive_stack.rs: AStack::extend_rev"]}
{"id": "C69", "title": "Memoised computations answer as plain ones", "statement": "Running fold_up, fold_up_nl, fold_up_gauged, fold_lr, fold_lr_meta, fold_lr_archive or map on one tree after another, starting from an empty memo table that is kept between the runs, gives each time the value computed from scratch, whatever names the trees carry (also repeated ones).", "quantifier": "all trees, functions and histories of trees", "why_tests_cant": "needs arbitrary histories of edits and name clashes; a stale answer is silent", "anchors": ["src/level_tree.rs: Tree::fold_up_meta", "src/level_tree.rs: Tree::fold_lr_meta", "src/level_tree.rs: Tree::map", "src/raz.rs: RazTree::fold_up", "src/raz.rs: RazTree::fold_up_nl", "src/raz.rs: RazTree::fold_up_gauged", "src/raz.rs: RazTree::fold_lr", "src/raz.rs: RazTree::fold_lr_meta", "src/raz.rs: RazTree::fold_lr_archive", "src/raz.rs: RazTree::map"]}
{"id": "C70", "title": "Rerunning fold_up or map after a change", "statement": "If all archive points are named, no name occurs twice and names of removed points are not reused, then after replacing the part mid by mid' between pre and post a rerun of fold_up (also _nl, _gauged) or map enters at most 1 + 2k nodes, k the number of archive points in mid', of those of pre with only lower or equal ones after them and of those of post above all before them; at most the root when nothing changed. A tree without names is entered completely every time.", "quantifier": "all reached trees, histories, edits and functions", "why_tests_cant": "the crate claims 'much faster than running from scratch'; no test counts work", "anchors": ["src/level_tree.rs: Tree::fold_up_meta", "src/level_tree.rs: Tree::map", "src/raz.rs: RazTree::fold_up", "src/raz.rs: RazTree::map"]}
{"id": "C71", "title": "Rerunning a left-to-right fold after a change", "statement": "Under the same conditions a rerun of fold_lr, fold_lr_meta or fold_lr_archive enters at most 1 + 2k nodes, k the number of archive points in mid', of all those after the change, and of those before it with only lower or equal ones after them; at most the root when nothing changed.", "quantifier": "all reached trees, histories, edits and functions", "why_tests_cant": "no test counts work", "anchors": ["src/level_tree.rs: Tree::fold_lr_meta", "src/raz.rs: RazTree::fold_lr_meta", "src/raz.rs: RazTree::fold_lr_archive", "src/raz.rs: RazTree::fold_lr"]}
{"id": "C72", "title": "Different computations in one namespace", "statement": "That fold_up and map answer correctly when another function has been run over the same tree in the same namespace is refuted: the functions are not part of the compared arguments, so the answer of the first computation comes back.", "quantifier": "witnesses", "why_tests_cant": "silently wrong results", "anchors": ["src/level_tree.rs: Tree::fold_up_meta", "src/level_tree.rs: Tree::map", "src/raz.rs: RazTree::fold_up", "src/raz.rs: RazTree::map"]}
{"id": "C73", "title": "Versions made in a namespace", "statement": "A program run in a namespace writes no cell of another namespace, so a tree or stack made elsewhere reads as before although the program started from its handle. If it brings only new names it answers as the immutable code does and ends with the trees that code gives; versions made in two namespaces do not disturb each other. That a version keeps its contents when the original is edited later, or when a second version is made in the same namespace, is refuted.", "quantifier": "all namespaces, programs, stores and initial trees without repeated names; witnesses for the refuted parts", "why_tests_cant": "lib.rs: 'should produce a version whose edits do not affect the original, but this has not been thoroughly tested'", "anchors": ["src/lib.rs: documentation of mutable structures", "src/raz.rs: RazTree::focus", "src/raz.rs: RazTree::join", "src/raz.rs: Raz::unfocus", "src/level_tree.rs: Tree::new", "src/stack.rs: Stack::push"]}
{"id": "C74", "title": "The loop of an edit-compute experiment", "statement": "EditComputeSequence makes the data, computes once, then alternates edit and compute as often as asked; each computation is on the data of the edit just before it, the result has one more entry than there are changes, and the experiment fails exactly if one of its steps does.", "quantifier": "all creators, editors, computations and numbers of changes", "why_tests_cant": "the experiment is only run for timing; nothing checks what is measured", "anchors": ["eval/src/test_seq.rs: EditComputeSequence::test"]}
{"id": "C75", "title": "Answers of the experiments on EvalIRaz", "statement": "An experiment starting with at least one generated element, appending or inserting a batch each time, never panics (below the counter limits), and its i-th answer is the one for the plain list after i edits. This covers filter, reverse, max, tree_to_list, unique_elms, adder, to_string and crossover of eval/examples.", "quantifier": "all generators, sizes, gauges, batches, numbers of changes and functions", "why_tests_cant": "random histories; answers are thrown away by the experiments", "anchors": ["eval/src/test_seq.rs: EditComputeSequence::test", "eval/src/actions.rs: IncrementalInit", "eval/src/actions.rs: BatchInsert", "eval/src/actions.rs: BatchAppend", "eval/src/actions.rs: TreeFoldG", "eval/src/actions.rs: MFolder", "eval/src/actions.rs: HFolder", "eval/src/actions.rs: Compute2", "eval/examples/filter.rs", "eval/examples/reverse.rs", "eval/examples/max.rs", "eval/examples/tree_to_list.rs", "eval/examples/unique_elms.rs", "eval/examples/adder.rs"]}
{"id": "C76", "title": "Comparing the experiments on EvalVec and EvalIRaz", "statement": "The experiment on EvalVec answers for the plain list after its own edits; filter, reverse, max and adder give there what their names say, max panicking on an empty list. With appended batches this is the list of the EvalIRaz experiment after as many edits; that it is with inserted batches, as in all examples, is refuted.", "quantifier": "all generators, sizes and batches; a witness for the refuted part", "why_tests_cant": "only times are compared", "anchors": ["eval/src/test_seq.rs: EditComputeSequence::test", "eval/src/actions.rs: BatchInsert", "eval/src/actions.rs: BatchAppend", "eval/src/eval_vec.rs: EvalVec::insert", "eval/src/eval_iraz.rs: EvalIRaz::insert"]}
{"id": "C77", "title": "Build experiments", "statement": "BuildTest builds one structure for each size, all from the same generator, so that a smaller build holds a prefix of the elements of a larger one, and inserts one batch into each.", "quantifier": "all generators, sizes, gauges and batches", "why_tests_cant": "only timed", "anchors": ["eval/src/test_build.rs: BuildTest::test"]}
{"id": "C78", "title": "Work of a rerun in an experiment", "statement": "In an experiment with a name for every archive point (namegauge 1), rerunning a bottom-up computation after an edit enters at most 1 + 2k nodes, where k counts the new archive points (at most batch/datagauge + 1), those before the batch with only lower or equal ones after them, and those after it above all before them (at most 64). A left-to-right computation enters at most 1 + 2k nodes with k counting all archive points after the batch.", "quantifier": "all generators, sizes, gauges, batches, numbers of changes and functions", "why_tests_cant": "the purpose of the library; no test counts work", "anchors": ["eval/src/test_seq.rs: EditComputeSequence::test", "src/raz.rs: RazTree::fold_up", "src/raz.rs: RazTree::fold_up_gauged", "src/raz.rs: RazTree::fold_lr_meta", "eval/src/eval_iraz.rs: EvalIRaz::insert"]}
{"id": "C79", "title": "Memoised folds over overwritten cells", "statement": "With the memo table recording which cells a call has read, every run of fold_up, fold_up_nl, fold_up_gauged, fold_lr, fold_lr_meta or fold_lr_archive gives the answer of the plain computation for the tree that the handle reads as at that time, whatever has been written to the store between the runs. So a program that edits trees in place and recomputes in between gets from the store, cells and memo table what the immutable code gives.", "quantifier": "all stores, handles, histories, functions and programs that bring only names not in use", "why_tests_cant": "stale results appear only for particular overlaps of edits, names and earlier runs", "anchors": ["src/level_tree.rs: Tree::fold_up_meta", "src/level_tree.rs: Tree::fold_lr_meta", "src/raz.rs: RazTree::fold_up", "src/raz.rs: RazTree::fold_up_nl", "src/raz.rs: RazTree::fold_up_gauged", "src/raz.rs: RazTree::fold_lr", "src/raz.rs: RazTree::fold_lr_meta", "src/raz.rs: RazTree::fold_lr_archive", "src/level_tree.rs: Tree::new"]}
{"id": "C80", "title": "Work of a rerun after editing in place", "statement": "If the trees are kept in one namespace, the bounds on the number of nodes entered by a rerun (as for immutable trees, in terms of the archive points around the change) hold for trees that were edited in place, under the same handle, over the mutable store; a rerun on an unchanged tree enters at most the root. Programs working in one namespace keep their trees there.", "quantifier": "all stores, reached trees, histories, edits and functions", "why_tests_cant": "no test counts work", "anchors": ["src/level_tree.rs: Tree::fold_up_meta", "src/level_tree.rs: Tree::fold_lr_meta", "src/raz.rs: RazTree::fold_up", "src/raz.rs: RazTree::fold_lr_meta", "src/raz.rs: Raz::unfocus", "src/raz.rs: RazTree::focus"]}
{"id": "C81", "title": "map over the mutable store", "statement": "map over a tree without repeated names gives a handle that reads as the mapped tree, and writes only cells of the current namespace under names of the tree. A tree with no cell in the current namespace (or no names) reads as before. If its root is a named cell of the current namespace the result is that same cell, so the original handle reads as the mapped tree; that map leaves its argument alone is refuted.", "quantifier": "all trees without repeated names, handles, stores, namespaces and functions from the element type to itself", "why_tests_cant": "aliasing between argument and result; the test only looks at the result", "anchors": ["src/level_tree.rs: Tree::map", "src/raz.rs: RazTree::map", "src/level_tree.rs: Tree::new"]}
{"id": "C82", "title": "memo_from over the mutable store", "statement": "The tree made from an archive stack without repeated names reads as the immutable code says, and only cells of the current namespace under names of the stack are written. If no cell of the stack is in the current namespace the stack reads as before; otherwise reading it fails afterwards. That memo_from, which takes the stack by reference, leaves it alone is refuted.", "quantifier": "all stacks without repeated names, stores and namespaces, AtTail and AtHead", "why_tests_cant": "the tests drop the stack after the conversion", "anchors": ["src/raz.rs: MemoFrom<AtTail> for RazTree", "src/raz.rs: MemoFrom<AtHead> for RazTree", "src/raz.rs: bin"]}
{"id": "C83", "title": "Counts past the range of usize", "statement": "For a tree with an archive point the Count is the number of elements modulo 2^64, and focus refuses every index above that (except usize::MAX). A one-element tree joined with itself 64 times has 2^64 elements and Count 0, so that Count is the number of elements, and that focus accepts every index up to it, are refuted without the bound on the size. Joined to the left of another tree, such a tree shifts indexes: index i is the place after the first i elements of the right part.", "quantifier": "all reachable trees, element types and indices", "why_tests_cant": "needs trees with 2^64 elements, which only sharing can make", "anchors": ["src/raz_meta.rs: Count::from_meta", "src/raz_meta.rs: Count::navigate", "src/raz.rs: RazTree::focus", "src/raz.rs: RazTree::join"]}
{"id": "C84", "title": "Report of an experiment", "statement": "The report printed by the experiments gives the first compute times, the average over exactly the changes, and as cross over the last change at which the accumulated native time passes the accumulated incremental time, 0 if there is none. If the incremental version is ahead at the end, it is ahead from the reported change on; \"off chart\" after a slower initial run means it never catches up. That a reported cross over lasts, and that \"off chart\" means being behind, are refuted. Too few times are a panic.", "quantifier": "all numbers of changes and sequences of times (exact arithmetic)", "why_tests_cant": "the numbers are only printed; real timings rarely cross more than once", "anchors": ["eval/examples/max.rs: main2", "eval/examples/filter.rs: main2", "eval/examples/reverse.rs: main2", "eval/examples/to_string.rs: main2", "eval/examples/adder.rs: main2"]}
{"id": "C85", "title": "Data file of an experiment", "statement": "Row j of the data file holds the accumulated times of the creation and the first j edits and of the first j+1 computations. The times of the last change are not in the file, so that the last row is the total of the experiment is refuted.", "quantifier": "all numbers of changes and sequences of times (exact arithmetic)", "why_tests_cant": "the files are only plotted", "anchors": ["eval/examples/max.rs: main2", "eval/examples/crossover.rs: main", "eval/examples/unique_elms.rs: main2", "eval/examples/tree_to_list.rs: main2"]}
{"id": "C86", "title": "Example tree for tests", "statement": "iraztree_depth_4 never panics and gives a canonical tree with the shape, levels and arrays of its diagram, holding 1 to 16 in order, for every element and metadata type. Its points are named after the archive calls; that they have the names of the diagram is refuted.", "quantifier": "all element types, conversions from usize and metadata", "why_tests_cant": "the function is not called by any test", "anchors": ["eval/src/examples.rs: iraztree_depth_4"]}
{"id": "C87", "title": "Level arithmetic", "statement": "l_inc gives the least greater level and l_dec the greatest lesser level, staying between l_min and l_max and undoing each other. At the ends a debug build panics and a release build wraps to the other end, so there the documented next greater and next lesser level is refuted.", "quantifier": "all levels of NegBin and usize, debug and release builds", "why_tests_cant": "overflow only at the ends", "anchors": ["src/trees.rs: Level for NegBin", "src/trees.rs: Level for usize"]}
{"id": "C88", "title": "Generated element types", "statement": "GenSmall and Gen10k values are below 100 and 10000; each value comes from the words congruent to it, so values below 16 (1616) come from one more word than the others. Sums of up to 2^64/99 GenSmall values do not overflow. Elm hands its number to the hasher a hundred times, so different elements hand over different words.", "quantifier": "all 64-bit words, lists of values and elements", "why_tests_cant": "distribution over 2^64 words", "anchors": ["eval/src/types.rs: GenSmall", "eval/src/types.rs: Gen10k", "eval/src/types.rs: Elm"]}
{"id": "C89", "title": "Inner nodes of tries", "statement": "find follows the bits of the hash from the lowest up and looks the key up in the map it arrives at. split_map of keys that agree with the given bits distributes them by bit len+1 of their hashes. The union of two branches whose maps are where find looks for them panics, because it pairs the two children of one branch; and where a union of two maps succeeds (below the root) it splits by another bit than find uses, so that find finds every key of a union is refuted. For branches with one child each the union succeeds and puts the child of the first to the left and that of the second to the right, wherever they were.", "quantifier": "all tries, maps, keys, hashes and hash functions", "why_tests_cant": "there is no test of tries with inner nodes", "anchors": ["src/trie.rs: Trie::find", "src/trie.rs: Trie::split_map", "src/trie.rs: Trie::union_rec"]}
{"id": "C90", "title": "Memoised conversion of stacks", "statement": "Conversion after conversion of any archive stacks in one namespace, the memoised memo_from builds the trees (and panics where) the plain one does, whether or not archive points share names.", "quantifier": "all sequences of stacks, names and element types, AtTail and AtHead", "why_tests_cant": "no test converts two stacks under the same names", "anchors": ["src/raz.rs: MemoFrom<AtTail> for RazTree", "src/raz.rs: MemoFrom<AtHead> for RazTree"]}
{"id": "C91", "title": "Work of repeated conversions", "statement": "Converting a stack runs the builder once per archive point. Converting a later stack of a history in which every archive point is named, and names of removed points are not used again, runs it at most for the points pushed since the last conversion and those of the common rest that no later point of the rest is above; it runs for exactly these when something was only added (for AtHead: with levels below 2^32-1, otherwise possibly for fewer), and not at all when the stacks are equal. Without names the builder runs for every point every time.", "quantifier": "all histories of stacks made by push, archive, pop and next_archive", "why_tests_cant": "the amount of reused work is not observed by tests", "anchors": ["src/raz.rs: MemoFrom<AtTail> for RazTree", "src/raz.rs: MemoFrom<AtHead> for RazTree"]}
{"id": "C92", "title": "Length of the path to the cursor", "statement": "Focusing a tree keeps, to the left of the cursor, one node for each archive point with no higher one between it and the cursor, and to the right one for each with only lower ones between. After any edits and moves this holds of the archive points that are not new since the focus. With generated levels the right part has at most 64 nodes; that the left part is short as well is refuted: with equal levels it has a node for every archive point.", "quantifier": "all reachable trees, lawful metadata, positions and scripts", "why_tests_cant": "the length of the path is not observable by results, only by time", "anchors": ["src/raz.rs: RazTree::focus", "src/tree_cursor.rs: Cursor::down", "src/tree_cursor.rs: Cursor::up", "src/level_tree.rs: gen_branch_level"]}
{"id": "C93", "title": "Balance of trees with generated levels", "statement": "Summed over all sequences of n words the level generator can draw, the number of archive points seen from the right end and from the left end have exact closed forms; so on average at most log2 n + 2 are seen from the right and (log2 n + 3)/2 from the left. The path to a cursor with a archive points before it and b after it has on average at most log2 a + log2 b + 4 nodes.", "quantifier": "all n, a, b below 2^63 (the closed forms: all n), all families of sequences and reachable trees with the generated levels; equally likely words", "why_tests_cant": "an average over 2^(64 n) cases; the documentation claims balance without a bound", "anchors": ["src/level_tree.rs: gen_branch_level", "src/raz.rs: RazTree::focus"]}
{"id": "C94", "title": "Expected work of reruns", "statement": "On average over the generated levels of the a archive points before and the b after a change that leaves at most k between, rerunning a bottom-up fold or map enters at most 1 + 2(k + log2 a + log2 b + 4) nodes; converting a stack again that has n points in common with the last one and at most k new ones runs the builder at most k + log2 n + 2 times.", "quantifier": "all a, b, n below 2^63, all k, histories with names not used again, functions, element and metadata types; equally likely words", "why_tests_cant": "an average over all random choices; timing experiments only sample it", "anchors": ["src/level_tree.rs: Tree::fold_up_meta", "src/raz.rs: RazTree::map", "src/raz.rs: MemoFrom<AtTail> for RazTree", "src/raz.rs: MemoFrom<AtHead> for RazTree"]}
{"id": "C95", "title": "Cells changed by an edit", "statement": "Over the mutable store, a program that edits a tree (at any places between a common beginning and a common end of the sequence) changes the contents of at most the cells of archive points seen from the two ends of the edited part, of the points inside it before or after, and of the names it brings; all other cells are as before. On average over the generated levels of the a points before and the b after, these are at most k + log2 a + log2 b + 4, with k the number of points inside and of names brought.", "quantifier": "all stores, reached trees, edits, programs and metadata; for the average a and b below 2^63 and equally likely words", "why_tests_cant": "change propagation depends on which cells change; no test looks at cells", "anchors": ["src/raz.rs: RazTree::focus", "src/raz.rs: Raz::unfocus", "src/tree_cursor.rs: Cursor::up", "src/level_tree.rs: Tree::new", "src/level_tree.rs: gen_branch_level"]}
{"id": "C96", "title": "Equality and hashing of tries and names", "statement": "Equality of tries is an equivalence and equal tries hash alike; it compares branches, names and the hashes of leaves, not their maps. Tries made from one map iterated over in two orders answer all lookups alike; that they are equal is refuted for every digest that depends on the order. Names metadata are equal when they have the same names; equal ones hash alike, navigate alike and combine to equal ones, so the iteration order does not matter.", "quantifier": "all tries, maps, orders, digests and sets of names", "why_tests_cant": "the iteration order of a HashMap differs from run to run", "anchors": ["src/trie.rs: PartialEq for TrieLeaf", "src/trie.rs: Hash for TrieLeaf", "src/trie.rs: Trie::hash_map", "src/raz_meta.rs: Hash for Names", "src/raz_meta.rs: Names::from_meta", "src/raz_meta.rs: Names::navigate"]}
{"id": "C97", "title": "Moves over the tree made by an edit", "statement": "Counting every move of a tree cursor (up, down left, down right, also those that fail): focusing makes as many as the path to the place has nodes, or one more; a script of pushes, pops and archive points makes exactly as many as the path grows plus a toll per pop (4 for an old archive point passed, 1 at the end of the sequence, otherwise 0); unfocusing makes at most the path, twice the points seen next, 8 per new archive point and 6. So focusing, k steps and unfocusing make at most 8k + 7 plus twice the archive points seen in the end. Peeking makes as many moves as popping, each time it is called: that repeated peeks are cheap is refuted.", "quantifier": "all reachable trees, lawful metadata, positions, scripts without peeks; peeks in all reachable states", "why_tests_cant": "running time is not a result; tests only see that a call returns", "anchors": ["src/tree_cursor.rs: Cursor::up", "src/tree_cursor.rs: Cursor::down_left_force", "src/tree_cursor.rs: Cursor::down_right_force", "src/tree_cursor.rs: Cursor::join", "src/raz.rs: RazTree::focus", "src/raz.rs: Raz::unfocus", "src/raz.rs: Raz::pop_left", "src/raz.rs: Raz::peek_left"]}
{"id": "C98", "title": "Expected work of an edit", "statement": "On average over the generated levels of the a old archive points left before and the b left after the cursor, focusing, at most k pushes, pops and archive points, and unfocusing make at most 4 log2 a + log2 b + 8k + 18 moves of tree cursors.", "quantifier": "all a, b below 2^63, all k, reachable trees with counting metadata, places and scripts; equally likely words", "why_tests_cant": "an average over all random choices; timing experiments only sample it", "anchors": ["src/level_tree.rs: gen_branch_level", "src/raz.rs: RazTree::focus", "src/raz.rs: Raz::unfocus", "src/raz.rs: Raz::pop_left", "src/raz.rs: Raz::pop_right", "src/tree_cursor.rs: Cursor::join"]}
{"id": "C99", "title": "Memoised map over overwritten cells", "statement": "With memo entries that record the cells a call has read and written, a run of map gives a tree that reads, in the store left, as the mapped sequence, whatever ran before with the same table and whatever was written to the store between the runs, also over earlier results. It changes only the cells of the names of the tree in its own namespace, so a tree kept elsewhere reads as before.", "quantifier": "all stores, handles, histories of runs and functions; trees whose node names are distinct", "why_tests_cant": "a stale or overwritten result appears only for particular overlaps of edits, names and earlier runs", "anchors": ["src/level_tree.rs: Tree::map", "src/raz.rs: RazTree::map", "src/level_tree.rs: Tree::new"]}
{"id": "C100", "title": "Work and writes of a map run again", "statement": "If the trees mapped are kept in one namespace and the results made in another in which nobody else writes, mapping a tree again after an edit in place enters at most 1 + 2s nodes, with s the number of archive points inside the changed part and seen from its two ends; the cells it changes are those of nodes entered. So the results of the untouched parts are kept as they are.", "quantifier": "all stores, reached trees, histories with names not used again, edits, functions and metadata", "why_tests_cant": "no test counts work or looks at the cells written", "anchors": ["src/level_tree.rs: Tree::map", "src/raz.rs: RazTree::map", "src/raz.rs: Raz::unfocus", "src/raz.rs: RazTree::focus"]}
{"id": "C101", "title": "The randomised tests pass whatever is drawn", "statement": "test_names_many_edits passes for every number of elements (at least one) and of edits and everything drawn, and the names compared are those of all elements but the last, in order. test_name_indexes passes for every gauge above 1, every number of archive points and everything drawn, and finds just the values looked for; with a gauge of 1 it fails if the last value is drawn. skiplist_vs_hashmap passes for every hash function, path length, number of keys, gauge and everything drawn.", "quantifier": "all draws of 64-bit words, all constants in place of those of the tests; fewer than 2^64 elements; path lengths 1 to 63 in debug builds", "why_tests_cant": "a run of a randomised test is one sample", "anchors": ["src/raz.rs: test_names_many_edits", "src/raz.rs: test_name_indexes", "src/skiplist.rs: skiplist_vs_hashmap", "src/raz.rs: RazTree::fold_lr_meta", "src/raz.rs: RazTree::focus", "src/lib.rs: inc_level"]}
{"id": "C102", "title": "Memoised conversion of a stack over overwritten cells", "statement": "With memo entries that record the cells a call has read and written, converting an archive stack of stacks to a tree gives, for both conversions, a tree that reads in the store left as the one made from the content of the stack, whatever ran before with the same table and whatever was written between the runs to the cells of stacks and trees. It changes only cells of the names of the stack in its own namespace, and if no cell of the stack is in that namespace the stack reads as before.", "quantifier": "all stores, handles, histories of runs and metadata; stacks whose names are distinct and whose conversion from immutable values does not panic", "why_tests_cant": "a stale or overwritten result appears only for particular overlaps of pushes, names and earlier runs", "anchors": ["src/raz.rs: MemoFrom<AtTail> for RazTree", "src/raz.rs: MemoFrom<AtHead> for RazTree", "src/archive_stack.rs: AStack::next_archive", "src/level_tree.rs: Tree::new"]}
{"id": "C103", "title": "Work and writes of a conversion run again", "statement": "If stacks are kept outside the namespace in which they are converted, and nobody else writes in it, converting a stack again whose last part is as in the run before enters at most one call for each archive point of the changed part on top and for each point of the untouched part seen from there; converting the same stack again enters none. The cells changed are those of the names of the calls entered, so the nodes made from the untouched part are kept as they are.", "quantifier": "all stores, stacks, metadata and histories of conversions with names not used again", "why_tests_cant": "no test counts work or looks at the cells written", "anchors": ["src/raz.rs: MemoFrom<AtTail> for RazTree", "src/raz.rs: MemoFrom<AtHead> for RazTree", "src/archive_stack.rs: AStack::next_archive"]}
{"id": "C104", "title": "An incremental pipeline from stack to answer", "statement": "Convert an archive stack to a tree after each change and fold or map the tree, all with memo tables kept and in their own namespaces. The folds answer what they answer on the trees made from the stacks alone. After a change of the part on top, with k the number of archive points in the new part and of those in the rest that are seen from there, conversion and computation together enter at most 1 + 3k calls. This holds for both conversions with bottom-up folds and with map, and for the conversion at the tail also with left-to-right folds.", "quantifier": "all stores, stacks with elements on top of the last point, metadata, functions and histories with names not used again", "why_tests_cant": "the parts are tested alone, and no test counts work", "anchors": ["src/raz.rs: MemoFrom<AtTail> for RazTree", "src/raz.rs: MemoFrom<AtHead> for RazTree", "src/raz.rs: RazTree::fold_up_gauged", "src/raz.rs: RazTree::fold_lr_meta", "src/raz.rs: RazTree::map"]}
{"id": "C105", "title": "Skiplists that share a store of named cells", "statement": "Make any number of skiplists with emp and clone, and use them in any order and in any namespaces. Each of ext, put and rem writes the one cell whose name is that of the skiplist paired with the number of extensions since it was archived; nothing else is written. If no cell is written twice, every skiplist answers like a map of its own, so old versions stay as they were; for one skiplist it is enough that the names given to emp and archive differ. If cells are overwritten bindings can be lost (two clones extended, a name archived twice), but with one path length below 64 nothing panics or loops, and a value returned for a key has been bound to it before.", "quantifier": "all hash functions, keys, stores before, scripts, namespaces and names", "why_tests_cant": "the test uses one skiplist with fresh names; sharing shows only when two versions are used or a name comes again", "anchors": ["src/skiplist.rs: Skiplist::ext", "src/skiplist.rs: Skiplist::archive", "src/skiplist.rs: Skiplist::emp", "src/skiplist.rs: build_path_rec"]}
{"id": "C106", "title": "unique_elms over a store of named cells", "statement": "The unique_elms computation, with the skiplist's cells named after the archive points of the tree and written to any store, finds exactly the elements of the tree if the names in the tree differ from each other, from the unit name and from the name start. If a name occurs twice, an element can be missed.", "quantifier": "all trees that the API can make, hash functions, path lengths (below 64 in debug builds), stores and namespaces", "why_tests_cant": "the example prints times only, and its trees have fresh names", "anchors": ["eval/examples/unique_elms.rs", "src/skiplist.rs: Skiplist::archive", "src/raz.rs: RazTree::fold_lr_archive"]}
{"id": "C107", "title": "Experiments over a store of named cells", "statement": "Run an experiment on EvalIRaz (create, then edit and compute in turn) with all trees and stacks in named cells that later steps overwrite and one memo table kept throughout. From whatever the store holds, with the harness and the computation in any namespaces, the answers, the random generator and the trees read at each step are those of the same experiment with immutable values and no memoisation; only cells of the harness's namespace with names it has drawn are written. In particular it does not panic, and the i-th answer of a fold or of max is that for the list which i edits make of the generated elements. With a name for every archive point each computation after an edit runs again at most one function, and two for each new point, each point before the batch seen from there, and each of the at most 64 points after it seen from there. An experiment in another namespace leaves the trees as they are; one in the same namespace can change them. A harness made from an existing tree counts its names from 0 again, so in the namespace of the tree its edits can lose elements.", "quantifier": "all element and coordinate generators, functions, stores, namespaces, numbers of changes and gauges for which the counters do not overflow", "why_tests_cant": "the evaluation programs print times for a few sizes, and reuse of a stale or overwritten cell gives a wrong answer silently", "anchors": ["eval/src/eval_iraz.rs", "eval/src/test_seq.rs", "eval/src/actions.rs", "src/raz.rs: Raz::unfocus", "src/raz.rs: RazTree::focus"]}
{"id": "C108", "title": "unique_elms run again with a memo table", "statement": "Run unique_elms again and again on trees in named cells, with the memo table kept; each run finds the cells of trees and of skiplists as whatever happened in between has left them. Each run leaves the handle and the cells of the skiplist that it leaves when run from scratch, so its skiplist has exactly the elements of the tree as it is at that moment. A result is taken from the table only if the cells read and written for it, of the tree and of the skiplist, are unchanged.", "quantifier": "all trees that the API can make with distinct names, hash functions, path lengths (below 64 in debug builds), histories of runs, and stores at each run", "why_tests_cant": "the skiplist is itself written to cells that later runs overwrite; a stale link shows only for particular edits and hash values", "anchors": ["eval/examples/unique_elms.rs", "src/skiplist.rs: Skiplist::ext", "src/skiplist.rs: build_path_rec", "src/level_tree.rs: Tree::fold_lr_meta"]}
{"id": "C109", "title": "Work of unique_elms run again after a change", "statement": "Run unique_elms with an empty memo table on a tree in named cells, over any cells of skiplists, then change the tree and run it again over the cells and with the table that the first run has left. The second run enters the code of at most one node, and of two for each archive point before the change that is seen from there, each one in the new part and each one after the change. If the sequence is unchanged it enters one.", "quantifier": "all pairs of trees that the API can make with distinct names for all points, hash functions, path lengths (below 64 in debug builds), and stores and namespaces for trees and skiplists", "why_tests_cant": "no test counts work; a skiplist cell rewritten with other content would invalidate all results that have read it", "anchors": ["eval/examples/unique_elms.rs", "src/skiplist.rs: Skiplist::ext", "src/level_tree.rs: Tree::fold_lr_meta", "src/raz.rs: RazTree::fold_lr_archive"]}
{"id": "C110", "title": "Memoised fold over the right iterator", "statement": "With the memo table kept over any sequence of calls, IterR::fold_out gives for each iterator and initial value what it gives without memoisation. A fold run after a first one enters its own code no more often than it passes nodes up to and including the first one after which it holds the same iterator and accumulator as the first fold held after the node of that name; on the same iterator, with all nodes named, once. The same holds if other folds ran in between that came to no node of that name. A change of an element before the position can make it fold everything again although the remaining elements and the accumulator are the same, because the iterator holds the trees above it.", "quantifier": "all element types, updates, functions, sequences of iterators made by into_iters and moved by next, and initial values; any names for the answers", "why_tests_cant": "the function has no caller in the repository and no test; whether an entry is found depends on everything the iterator holds", "anchors": ["src/tree_cursor.rs: IterR::fold_out", "src/tree_cursor.rs: Cursor::into_iters", "src/tree_cursor.rs: IterR::next"]}
{"id": "C111", "title": "Memoised reverse and filter over named cells", "statement": "Run the example reverse, or filter, again and again on trees in named cells, with the memo table kept; whatever happened to the cells in between. Each run on a non-empty tree gives a tree that reads as the reversed sequence, with its archive points, or as the chosen elements in order, with of the points between two of them exactly the highest if levels are kept. It writes only cells in its own namespace named like points of the argument, and the argument still reads as it did unless it lies in that namespace; there it may be overwritten.", "quantifier": "all trees that the API can make with distinct names, predicates, histories of runs, namespaces, and stores at each run", "why_tests_cant": "the results of earlier runs are reused and their cells written again; a stale node would show only for particular edits", "anchors": ["eval/examples/reverse.rs", "eval/examples/filter.rs", "src/raz.rs: RazTree::fold_up_gauged", "src/raz.rs: RazTree::join", "src/level_tree.rs: Tree::fold_up_meta"]}
{"id": "C112", "title": "Work of memoised reverse and filter after a change", "statement": "Run reverse, or filter, on the versions of a tree in named cells, with the memo table kept and nobody else writing where it writes. A run after a change enters the code of at most one node, and of two for each archive point before the change that is seen from there, each one in the new part and each one after the change that is seen. Every cell it changes is in its own namespace and has the name of a node it entered.", "quantifier": "all histories of trees that the API can make in which names keep their place and level, predicates, and namespaces of trees and results", "why_tests_cant": "no test counts work or watches which cells are written", "anchors": ["eval/examples/reverse.rs", "eval/examples/filter.rs", "src/raz.rs: RazTree::fold_up_gauged", "src/raz.rs: RazTree::join", "src/level_tree.rs: Tree::fold_up_meta"]}
{"id": "C113", "title": "Memoised tree_to_list over named cells", "statement": "Run tree_to_list into a List, a VecList or an archive stack again and again on trees in named cells, with the memo table kept; whatever happened to the cells in between. What each run returns reads, from the cells it leaves, as the list that the fold makes without memos and cells, so pops give the elements from the last to the first. It writes only cells in its namespace named like points of the tree. The next run may write them again, and then the older list shows something else.", "quantifier": "all trees that the API can make with distinct names, histories of runs, namespaces, and stores at each run; the cells of accumulators are apart from those of trees", "why_tests_cant": "the list is spread over cells that later runs write again; a stale cell would show only for particular edits", "anchors": ["eval/examples/tree_to_list.rs", "eval/src/accum_lists.rs", "eval/src/interface.rs", "src/archive_stack.rs: AStack::archive", "src/raz.rs: RazTree::fold_lr_meta", "src/level_tree.rs: Tree::fold_lr_meta"]}
{"id": "C114", "title": "Work of memoised tree_to_list after a change", "statement": "Run tree_to_list into a List, a VecList or an archive stack on the versions of a tree in named cells, with the memo table kept and nobody else writing where it writes. A run after a change enters the code of at most one node, and of two for each archive point before the change that is seen from there, each one in the new part and each one after the change that is seen, although the accumulator passes through the whole tree. Every cell it changes is in its namespace and has the name of a node it entered.", "quantifier": "all histories of trees that the API can make in which names keep their place and level, element and annotation types, and namespaces", "why_tests_cant": "no test counts work; that a fold from the left need not run again behind the change depends on the accumulator being handed on by reference", "anchors": ["eval/examples/tree_to_list.rs", "eval/src/accum_lists.rs", "eval/src/interface.rs", "src/archive_stack.rs: AStack::archive", "src/raz.rs: RazTree::fold_lr_meta", "src/level_tree.rs: Tree::fold_lr_meta"]}
{"id": "C115", "title": "Memoised tokenizer of the adder over named cells", "statement": "Run the adder's tokenizer again and again on texts in named cells, with the memo table kept; whatever happened to the cells in between. If the text consists of digits, plus signs and commas, what each run returns reads, from the cells it leaves, as the archive stack, with the same archive points, that the plain tokenizer makes of the tree, and its pops give the tokens of the plain text from the last to the first; otherwise the run panics with the message that tokenizing the plain text panics with. It writes only cells in its namespace named like points of the tree.", "quantifier": "all trees of characters that the API can make with distinct names, histories of runs, namespaces, and stores at each run; the cells of the token stack are apart from those of trees", "why_tests_cant": "numbers may span archive points, and a stale half of a number in a memo entry would show only for particular edits", "anchors": ["eval/examples/adder.rs: tokenize_step, tokenize_meta, tokenize_final", "eval/src/eval_iraz.rs: MFolder", "src/archive_stack.rs: AStack::archive", "src/raz.rs: RazTree::fold_lr_meta", "src/level_tree.rs: Tree::fold_lr_meta"]}
{"id": "C116", "title": "Work of the memoised tokenizer after a change", "statement": "Run the adder's tokenizer on the versions of a valid text in named cells, with the memo table kept and nobody else writing where it writes. Where a plus sign stands between the change and the next archive point, a run enters the code of at most one node, and of two for each archive point before the change that is seen from there, each one in the new part and each one after the change that is seen; every cell it changes is in its namespace and has the name of a node it entered. Without a plus sign the number being read can pass on the change and the rest of the text runs again.", "quantifier": "all histories of texts that the API can make in which names keep their place and level, and namespaces", "why_tests_cant": "no test counts work; how far a change reaches depends on the characters that follow it", "anchors": ["eval/examples/adder.rs: tokenize_step, tokenize_meta, tokenize_final", "eval/src/eval_iraz.rs: MFolder", "src/archive_stack.rs: AStack::archive", "src/raz.rs: RazTree::fold_lr_meta", "src/level_tree.rs: Tree::fold_lr_meta"]}
{"id": "C117", "title": "Memoised parser of the adder over named cells", "statement": "Run the adder's parser again and again on trees of tokens in named cells, with the memo table kept; whatever happened to the cells in between. The parser pops numbers that it has archived in cells before. Each run succeeds, and what it returns reads, from the cells it leaves, as the archive stack, with the same archive points, that the plain parser makes of the tree, and its pops give the numbers that evaluating the tokens from left to right on a plain stack gives, sums wrapping at 2^32. It writes only cells in its namespace named like points of the tree.", "quantifier": "all trees of tokens that the API can make with distinct names, histories of runs, namespaces, and stores at each run; the cells of the number stack are apart from those of trees", "why_tests_cant": "a plus reads cells that an earlier part of the same fold wrote, so reusing a memo whose cells changed since would give wrong sums only for particular edits", "anchors": ["eval/examples/adder.rs: parse_step, parse_meta", "eval/src/eval_iraz.rs: MFolder", "src/archive_stack.rs: AStack::archive, AStack::pop, AStack::retrieve", "src/raz.rs: RazTree::fold_lr_meta", "src/level_tree.rs: Tree::fold_lr_meta"]}
{"id": "C118", "title": "The adder over named cells, all stages memoised", "statement": "Run the adder, that is tokenizer, conversion of the token stack to a tree, and parser, again and again on texts in named cells, with the memo tables of both folds and of the conversion kept; whatever happened to the cells in between. If all archive points have levels below 2^32-1, each run returns a stack that reads, from the cells it leaves, as the one that the plain pipeline makes; its pops give the numbers that the same stages on plain vectors give. Each stage writes only cells in its namespace named like points of the text. If those panic, the run panics with the same message.", "quantifier": "all trees of characters that the API can make with distinct names and levels below 2^32-1, histories of runs, namespaces of the three stages, and stores at each run; the cells of the two stacks are apart from those of trees", "why_tests_cant": "the stages hand each other handles to cells that the next run overwrites; a stale cell would show only for particular sequences of edits", "anchors": ["eval/examples/adder.rs", "eval/src/actions.rs: Compute2", "eval/src/eval_iraz.rs: inc_from, MFolder", "src/archive_stack.rs: AStack", "src/raz.rs: RazTree::memo_from, RazTree::fold_lr_meta"]}
{"id": "C119", "title": "The adder's experiment over named cells", "statement": "Run the experiment of the adder example over named cells: the harness makes a text of generated characters and edits it in batches, and after the creation and each edit the memoised adder runs with the cells and memo tables of the runs before. It never panics, and gives one answer more than there are edits. The i-th answer reads, from the cells left by that run, as a stack whose pops give what the adder on plain vectors gives for the list of characters after i edits. In the cells of texts the harness writes only ones in its namespace with names that it drew.", "quantifier": "all sizes, gauges, numbers of changes and batch sizes that fit the machine words; append and insert; generators of digits, plus signs and commas; generators of levels; namespaces; stores at the start; memo tables of earlier runs; cells of the stacks and of token trees are apart from those of texts", "why_tests_cant": "the tests run the example for a few seeds; a memo that is stale for some sequence of edits would give a wrong number in one of them", "anchors": ["eval/examples/adder.rs", "eval/src/test_seq.rs: EditComputeSequence::test", "eval/src/eval_iraz.rs", "eval/src/actions.rs: Compute2, BatchInsert, BatchAppend", "src/archive_stack.rs: AStack", "src/raz.rs: RazTree::memo_from, RazTree::fold_lr_meta"]}
{"id": "C120", "title": "Experiments of tree_to_list over named cells", "statement": "Run the experiment of the tree_to_list example over named cells: the harness makes a sequence of generated elements and edits it in batches, and after the creation and each edit the memoised fold into a List, a VecList or an archive stack runs with the cells and the memo table of the runs before. It never panics, and gives one answer more than there are edits. The pops of the i-th answer, read from the cells left by that run, give the elements of the list after i edits, from the last to the first. The harness writes only cells of its namespace with names that it drew, and the fold only cells of its own.", "quantifier": "all element types, sizes, gauges, numbers of changes and batch sizes that fit the machine words; append and insert; generators of elements and levels; namespaces; stores at the start; memo tables of earlier runs; the cells of accumulators are apart from those of trees", "why_tests_cant": "the example runs with a few seeds and does not look at the lists; a stale cell behind an edit would go unnoticed", "anchors": ["eval/examples/tree_to_list.rs", "eval/src/test_seq.rs: EditComputeSequence::test", "eval/src/eval_iraz.rs", "eval/src/accum_lists.rs", "src/archive_stack.rs: AStack::archive", "src/raz.rs: RazTree::fold_lr_meta"]}
{"id": "C121", "title": "Work of the experiments of tree_to_list over named cells", "statement": "Run the experiment of the tree_to_list example over named cells, with a name at each level mark and an empty memo table. The tree given to each computation reads as the one before it with one batch put in somewhere, of as many elements as the edit says and at most one mark more than full gauges in it. The fold then enters at most 1 + 2n calls, where n counts the marks of the batch, the marks that can be seen from it to the left (no higher mark in between), and those seen to the right, of which there are at most 64.", "quantifier": "all element types, sizes, gauges, numbers of changes and batch sizes that fit the machine words, name gauge 1; append and insert; generators of elements and levels; namespaces; stores and cells at the start; List, VecList and archive stacks with and without levels", "why_tests_cant": "the example prints times, which do not tell reuse from speed; a fold that does everything again gives the same lists", "anchors": ["eval/examples/tree_to_list.rs", "eval/src/test_seq.rs: EditComputeSequence::test", "eval/src/eval_iraz.rs", "eval/src/accum_lists.rs", "src/raz.rs: RazTree::fold_lr_meta", "src/level_tree.rs: Tree::fold_lr_meta"]}
