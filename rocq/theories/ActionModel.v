(** * Model of the experiments: eval/src/actions.rs, test_seq.rs and test_build.rs.

    Timing is dropped: where the code records a [Duration] the model records the data
    that was made or the answer that was computed (the code drops these). A method of a
    harness trait of eval/src/primitives.rs is passed as a function. The computations of
    the harnesses do not use the generator they are given, so they are functions of the
    data only; closures may panic. [ns] is a call. *)

From Verif Require Import Base AccumModel AStackModel LevelTreeModel RazMetaModel RazModel ExampleModel SkiplistModel EvalModel EvalSpec.

(** [Creator], [Editor], [Computor], actions.rs:8-16. *)
Definition creator (D S : Type) : Type := S -> res (D * S).
Definition editor (D S : Type) : Type := D -> S -> res (D * S).
Definition computor (O D S : Type) : Type := D -> S -> res (O * S).

Section Create.
Context {D G S : Type}.
(** [IncrementalEmpty::create], actions.rs:29-34. *)
Definition incremental_empty (inc_empty : N -> N -> G -> S -> res (D * S)) (datagauge namegauge : N) (coord : G)
    : creator D S :=
  fun rng => inc_empty datagauge namegauge coord rng.
(** [IncrementalFrom::create], actions.rs:43-48. *)
Definition incremental_from {T} (inc_from : T -> N -> N -> G -> S -> res (D * S)) (data : T)
    (datagauge namegauge : N) (coord : G) : creator D S :=
  fun rng => inc_from data datagauge namegauge coord rng.
(** [IncrementalInit::create], actions.rs:58-63. *)
Definition incremental_init (inc_init : N -> N -> N -> G -> S -> res (D * S)) (size datagauge namegauge : N)
    (coord : G) : creator D S :=
  fun rng => inc_init size datagauge namegauge coord rng.
End Create.

Section Edit.
Context {D S : Type}.
(** [SingleAppend::edit], actions.rs:67-72. *)
Definition single_append (append : D -> N -> S -> res (D * S)) : editor D S := fun data rng => append data 1%N rng.
(** [BatchAppend::edit], actions.rs:76-81. *)
Definition batch_append (append : D -> N -> S -> res (D * S)) (n : N) : editor D S := fun data rng => append data n rng.
(** [BatchInsert::edit], actions.rs:85-90. *)
Definition batch_insert (insert : D -> N -> S -> res (D * S)) (n : N) : editor D S := fun data rng => insert data n rng.
(** [BatchExtend::edit], actions.rs:95-100. *)
Definition batch_extend (extend : D -> N -> S -> res (D * S)) (n : N) : editor D S := fun data rng => extend data n rng.
End Edit.

Section Compute.
Context {D S : Type}.

(** What all the [compute] functions below do with a trait method. *)
Definition calling {O} (m : D -> res O) : computor O D S := fun data rng => do o <- m data; Ok (o, rng).

(** [Compute2::compute], actions.rs:112-126. *)
Definition compute2 {J K} (a : computor J D S) (b : computor K J S) : computor K D S :=
  fun data rng => do ' (data, rng) <- a data rng; b data rng.
(** [FindMax::compute], actions.rs:137-151. *)
Definition find_max {T} (comp_max : D -> res T) : computor T D S := calling comp_max.
(** [Native::compute], actions.rs:155-167. *)
Definition native {I O} (comp_native : (I -> res O) -> D -> res O) (f : I -> res O) : computor O D S :=
  calling (comp_native f).
(** [Reverse::compute], actions.rs:170-178. *)
Definition reverse {T} (comp_rev : D -> res T) : computor T D S := calling comp_rev.
(** [TreeFold::compute], actions.rs:182-190. *)
Definition tree_fold {E O T} (comp_tfold : (E -> O) -> (O -> O -> O) -> D -> res T) (init : E -> O) (bin : O -> O -> O)
    : computor T D S := calling (comp_tfold init bin).
(** [TreeFoldNL::compute], actions.rs:217-231. *)
Definition tree_fold_nl {E O T} (comp_tfoldnl : (E -> O) -> (O -> O -> O) -> (O -> level -> option name -> O -> O) -> D -> res T)
    (init : E -> O) (bin : O -> O -> O) (binnl : O -> level -> option name -> O -> O) : computor T D S :=
  calling (comp_tfoldnl init bin binnl).
(** [TreeFoldG::compute], actions.rs:255-268. *)
Definition tree_fold_g {E O T} (comp_tfoldg : (list E -> res O) -> (O -> level -> option name -> O -> res O) -> D -> res T)
    (init : list E -> res O) (bin : O -> level -> option name -> O -> res O) : computor T D S :=
  calling (comp_tfoldg init bin).
(** [Mapper::compute], actions.rs:284-294. *)
Definition mapper {I O T} (comp_map : (I -> O) -> D -> res T) (f : I -> O) : computor T D S := calling (comp_map f).
(** [Folder::compute], actions.rs:298-324. *)
Definition folder {I O T} (comp_fold : O -> (O -> I -> O) -> D -> res T) (a : O) (f : O -> I -> O) : computor T D S :=
  calling (comp_fold a f).
(** [FFolder::compute], actions.rs:351-372. *)
Definition ffolder {I A T O} (comp_fold : A -> (A -> I -> A) -> D -> res T) (init : A) (run : A -> I -> A)
    (finish : T -> res O) : computor O D S :=
  calling (fun data => do r <- comp_fold init run data; finish r).
(** [MFolder::compute], actions.rs:407-450. *)
Definition mfolder {I A M T O} (comp_fold_meta : A -> (A -> I -> A) -> (A -> M -> A) -> D -> res T) (init : A)
    (run : A -> I -> A) (run_meta : A -> M -> A) (finish : T -> res O) : computor O D S :=
  calling (fun data => do r <- comp_fold_meta init run run_meta data; finish r).
(** [HFolder::compute], actions.rs:487-532. *)
Definition hfolder {I A M T O}
    (comp_fold_archive : A -> (A -> I -> A) -> (A -> option name -> A) -> (A -> M -> A) -> D -> res T) (init : A)
    (run : A -> I -> A) (run_fin : A -> option name -> A) (run_meta : A -> M -> A) (finish : T -> res O)
    : computor O D S :=
  calling (fun data => do r <- comp_fold_archive init run run_fin run_meta data; finish r).
End Compute.
(** [Proj0::compute], actions.rs:129-134. *)
Definition proj0 {R E S} : computor R (R * E) S := calling (fun data => Ok (fst data)).

Section Tests.
Context {D O S : Type}.

(** [EditComputeSequence::test], test_seq.rs:27-77 and 96-151 (the two differ in what
    the computation returns besides the time). *)
Definition test_seq (init : creator D S) (edit : editor D S) (comp : computor O D S) (changes : N) (rng : S)
    : res (list D * list O * S) :=
  do ' (dat, rng) <- init rng;
  do ' (o, rng) <- comp dat rng;
  do ' (_, edits, computes, rng) <- times (N.to_nat changes)
    (fun st : D * list D * list O * S =>
       let '(testdata, edits, computes, rng) := st in
       do ' (dat, rng) <- edit testdata rng;
       do ' (o, rng) <- comp dat rng;
       Ok (dat, edits ++ [dat], computes ++ [o], rng))
    (dat, [dat], [o], rng);
  Ok (edits, computes, rng).

(** [BuildTest::test], test_build.rs:28-61. The size of the [i]-th build,
    [multiplier.powi(i) as usize], is given by a function. *)
Definition build_test {G} (inc_init : N -> N -> N -> G -> S -> res (D * S)) (insert : D -> N -> S -> res (D * S))
    (size_at : N -> N) (datagauge namegauge : N) (coord : G) (batch : N) (count : N) (rng : S)
    : res (list D * list D * S) :=
  do ' (_, build, edit, rng) <- times (N.to_nat count)
    (fun st : N * list D * list D * S =>
       let '(i, build, edit, rng) := st in
       do ' (data, rng) <- incremental_init inc_init (size_at i) datagauge namegauge coord rng;
       do ' (data', rng) <- batch_insert insert batch data rng;
       Ok ((i + 1)%N, build ++ [data], edit ++ [data'], rng))
    (0%N, [], [], rng);
  Ok (build, edit, rng).
End Tests.

(** ** The harnesses as arguments of the actions *)
Section Methods.
Context {E G S : Type} {CG : Coord E G} {WS : WordRng S}.

(** [EvalVec], eval/src/eval_vec.rs: it does not use the second generator. *)
Definition vec_m_init (size dg ng : N) (coord : G) (rng : S) : res (eval_vec E G * S) := Ok (vec_inc_init size coord, rng).
Definition vec_m_append (ev : eval_vec E G) (b : N) (rng : S) : res (eval_vec E G * S) := Ok (vec_append ev b, rng).
Definition vec_m_extend (ev : eval_vec E G) (b : N) (rng : S) : res (eval_vec E G * S) := Ok (vec_extend ev b, rng).
Definition vec_m_insert (ev : eval_vec E G) (b : N) (rng : S) : res (eval_vec E G * S) :=
  do ev <- vec_insert ev b; Ok (ev, rng).
(** [comp_native], eval_vec.rs:134-147. *)
Definition vec_comp_native {O} (f : list E -> res O) (ev : eval_vec E G) : res O := f (fst ev).
(** The editor that puts in a batch each time, for the two harnesses. *)
Definition vec_editor (o : hop) : editor (eval_vec E G) S :=
  match o with HAppend b => batch_append vec_m_append b | HInsert b => batch_insert vec_m_insert b end.
Definition iraz_editor (o : hop) : editor (eval_raz E count G) S :=
  match o with HAppend b => batch_append ev_append b | HInsert b => batch_insert ev_insert b end.
End Methods.

(** ** The computations of the experiments in eval/examples *)
Section Uses.
Context {E M G S : Type} {RM : RazMeta E M}.
Notation ev := (eval_raz E M G).

(** filter.rs:74-95 and, for the vector, 107-113; any predicate for [*e % 2 == 0]. *)
Definition use_filter (p : E -> bool) : computor (option (raz_tree E M)) ev S :=
  tree_fold_g ev_comp_tfoldg (fun v => vec_tree (filter p v)) filter_bin.
Definition use_filter_vec (p : E -> bool) : computor (list E) (eval_vec E G) S :=
  native vec_comp_native (fun v => Ok (filter p v)).
(** reverse.rs:74-95 and 107-113. *)
Definition use_reverse : computor (option (raz_tree E M)) ev S :=
  tree_fold_g ev_comp_tfoldg (fun v => vec_tree (rev v)) reverse_bin.
Definition use_reverse_vec : computor (list E) (eval_vec E G) S := native vec_comp_native (fun v => Ok (rev v)).
(** max.rs:72-75 and 87-89. *)
Definition use_max (leb : E -> E -> bool) : computor (option E) ev S :=
  tree_fold_g ev_comp_tfoldg (fun v => unwrap "unwrap on None" (iter_max leb v)) (fun m1 _ _ m2 => Ok (cmp_max leb m1 m2)).
Definition use_max_vec (leb : E -> E -> bool) : computor E (eval_vec E G) S := native vec_comp_native (max_native leb).
(** tree_to_list.rs:114-120 and its copies. *)
Definition use_to_list {A} (IF : IFace E A) : computor A ev S := mfolder ev_comp_fold_meta if_new seq_push if_archive (fun a => Ok a).
(** unique_elms.rs:97-104. *)
Definition use_unique (keqb : E -> E -> bool) (my_hash : E -> N) (debug : bool) (pathlen : nat)
    : computor (skiplist E unit) ev S :=
  hfolder ev_comp_fold_archive (Ok (sk_archive (sk_emp pathlen NUnit) NUnit))
    (fun a e => do s <- a; sk_put keqb my_hash debug s e tt)
    (fun a nm => match nm with None => a | Some nm => do s <- a; Ok (sk_archive s nm) end)
    (fun a _ => a) (fun a => a).
(** to_string.rs:71-74; any function for [format!("{}",num)]. *)
Definition use_to_string {O N} {RN : RazMeta O N} (f : E -> O) : computor (raz_tree O N) ev S := mapper ev_comp_map f.
Definition use_to_string_vec {O} (f : E -> O) : computor (list O) (eval_vec E G) S :=
  mapper (fun f ev => Ok (vec_comp_map f ev)) f.
(** crossover.rs:76. *)
Definition use_find_max (leb : E -> E -> bool) : computor (option E) ev S := find_max (ev_comp_max leb).
Definition use_find_max_vec (leb : E -> E -> bool) : computor (option E) (eval_vec E G) S :=
  find_max (fun ev => Ok (vec_comp_max leb ev)).
End Uses.

Section Adder.
Context {M M' G S : Type} {RM : RazMeta N M} {RM' : RazMeta token M'}.
(** adder.rs:231-254, 312-315 ... *)
Definition use_adder (dg ng : N) (coord : G) : computor (astack N level) (eval_raz N M G) S :=
  compute2
    (mfolder ev_comp_fold_meta (Ok (if_new, None))
      (fun a c => do st <- a; tokenize_step (astack_iface token) st c)
      (fun a m => do st <- a; Ok (tokenize_meta (astack_iface token) st m))
      (fun a => do st <- a; ev_from_tail (M := M') (tokenize_final (astack_iface token) st) dg ng coord))
    (mfolder ev_comp_fold_meta (Ok if_new)
      (fun a c => do n <- a; parse_step (astack_iface N) n c)
      (fun a m => do n <- a; Ok (if_archive n m)) (fun a => a)).
(** ... and for vectors, adder.rs:270-293, 304-307. The steps may panic, and then the
    rest of the vector is not visited; here it is, without effect. *)
Definition use_adder_vec (coord : G) : computor (list N) (eval_vec N G) S :=
  compute2
    (mfolder (fun a f n ev => Ok (vec_comp_fold_meta a f n ev)) (Ok (if_new, None))
      (fun a c => do st <- a; tokenize_step (vec_iface token) st c)
      (fun a m => do st <- a; Ok (tokenize_meta (vec_iface token) st m))
      (fun a => do st <- a; Ok (tokenize_final (vec_iface token) st, coord)))
    (mfolder (fun a f n ev => Ok (vec_comp_fold_meta a f n ev)) (Ok if_new)
      (fun a c => do n <- a; parse_step (vec_iface N) n c)
      (fun a (m : level * option name) => do n <- a; Ok (if_archive n m)) (fun a => a)).
End Adder.
