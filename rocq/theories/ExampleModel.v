(** * Model of the computations in eval/examples: reverse, filter, max, tree_to_list,
    unique_elms, adder.

    The timing and plotting code around them is not modelled. [ns(name, ..)] only
    changes the names of cells, so it is the call itself here. *)

From Verif Require Import Base StackModel AStackModel LevelTreeModel TreeCursorModel RazMetaModel
  RazModel AccumModel SkiplistModel.

Section Trees.
Context {E M : Type} {RM : RazMeta E M}.
Notation raz_tree := (raz_tree E M).

(** [match IRazTree::from_vec(c) {None => IRazTree::empty(), Some(t) => t}],
    eval/examples/reverse.rs:78-81, eval/examples/filter.rs:78-81. *)
Definition vec_tree (c : list E) : res raz_tree :=
  do o <- rt_from_vec c;
  match o with
  | None => rt_empty
  | Some t => Ok t
  end.

(** The combining closure, eval/examples/reverse.rs:83-94. *)
Definition reverse_bin (t1 : raz_tree) (lev : level) (nm : option name) (t2 : raz_tree) : res raz_tree :=
  match rt_is_empty t1, rt_is_empty t2 with
  | true, true => rt_empty
  | false, true => Ok t1
  | true, false => Ok t2
  | false, false => do o <- rt_join t2 lev nm t1; unwrap "unwrap on None" o
  end.

(** The computation of the example, eval/examples/reverse.rs:74-95. *)
Definition reverse_tree (t : raz_tree) : res (option raz_tree) :=
  rt_fold_up_gauged t (fun v => vec_tree (rev v)) reverse_bin.

(** The combining closure, eval/examples/filter.rs:83-94. *)
Definition filter_bin (t1 : raz_tree) (lev : level) (nm : option name) (t2 : raz_tree) : res raz_tree :=
  match rt_is_empty t1, rt_is_empty t2 with
  | true, true => rt_empty
  | false, true => Ok t1
  | true, false => Ok t2
  | false, false => do o <- rt_join t1 lev nm t2; unwrap "unwrap on None" o
  end.

(** The computation of the example, eval/examples/filter.rs:74-95, for any predicate
    in place of [*e % 2 == 0]. [Vec::retain] is [filter]. *)
Definition filter_tree (p : E -> bool) (t : raz_tree) : res (option raz_tree) :=
  rt_fold_up_gauged t (fun v => vec_tree (filter p v)) filter_bin.

(** [cmp::max]: the second argument if it is not smaller. *)
Definition cmp_max (leb : E -> E -> bool) (a b : E) : E := if leb a b then b else a.

(** [Iterator::max]: the last of the greatest elements. *)
Definition iter_max (leb : E -> E -> bool) (v : list E) : option E :=
  match v with
  | [] => None
  | x :: r => Some (fold_left (cmp_max leb) r x)
  end.

(** The computation of the example, eval/examples/max.rs:72-75 ... *)
Definition max_tree (leb : E -> E -> bool) (t : raz_tree) : res (option E) :=
  rt_fold_up_gauged t (fun v => unwrap "unwrap on None" (iter_max leb v))
    (fun m1 _ _ m2 => Ok (cmp_max leb m1 m2)).
(** ... and its non-incremental version, eval/examples/max.rs:87-89. *)
Definition max_native (leb : E -> E -> bool) (v : list E) : res E :=
  unwrap "unwrap on None" (iter_max leb v).
(** [EvalIRaz::comp_max], eval/src/eval_iraz.rs:241-252 ... *)
Definition comp_max_tree (leb : E -> E -> bool) (t : raz_tree) : res (option E) :=
  rt_fold_up t (fun e => e) (cmp_max leb).
(** ... and [EvalVec::comp_max], eval/src/eval_vec.rs:109-119. *)
Definition comp_max_vec (leb : E -> E -> bool) (v : list E) : option E := iter_max leb v.

(** [to_list_step], [to_list_meta] and the fold over them,
    eval/examples/tree_to_list.rs:95-101 and 114-120; the vec list variant of
    eval/examples/unique_elms.rs:134-140 is the same. *)
Definition to_list {A} (IF : IFace E A) (t : raz_tree) : A :=
  rt_fold_lr_meta t if_new seq_push if_archive.

(** The skiplist as a set, eval/examples/unique_elms.rs:97-104. *)
Definition unique_elms (keqb : E -> E -> bool) (my_hash : E -> N) (debug : bool) (pathlen : nat)
    (t : raz_tree) : res (skiplist E unit) :=
  rt_fold_lr_archive t (Ok (sk_archive (sk_emp pathlen NUnit) NUnit))
    (fun a e => do s <- a; sk_put keqb my_hash debug s e tt)
    (fun a nm => match nm with None => a | Some nm => do s <- a; Ok (sk_archive s nm) end)
    (fun a _ => a).
End Trees.

(** ** The adder *)

(** [Token], eval/examples/adder.rs:53-57. *)
Inductive token : Type :=
| Num (n : N)
| OpPlus.

(** [char::to_digit(10)]; a [char] is its code point. *)
Definition to_digit (c : N) : option N :=
  if ((48 <=? c) && (c <=? 57))%N then Some (c - 48)%N else None.

(** [u32] arithmetic of a release build. *)
Definition u32_mod : N := 4294967296.
Definition u32_madd (a b c : N) : N := ((a * b + c) mod u32_mod)%N.

(** The push of an operator or nothing, eval/examples/adder.rs:174-178. *)
Definition push_op {A} (IF : IFace token A) (ts : A) (c : N) : res A :=
  if (c =? 43)%N then Ok (seq_push ts OpPlus)
  else if (c =? 44)%N then Ok ts
  else Panic "invalid char".

(** [tokenize_step], eval/examples/adder.rs:161-181. *)
Definition tokenize_step {A} (IF : IFace token A) (st : A * option N) (c : N) : res (A * option N) :=
  let (ts, part) := st in
  match to_digit c with
  | Some num =>
      let bigger := match part with None => num | Some p => u32_madd p 10 num end in
      let (ts, bigger) := if (99999 <? bigger)%N then (seq_push ts (Num bigger), num) else (ts, bigger) in
      Ok (ts, Some bigger)
  | None =>
      let ts := match part with Some num => seq_push ts (Num num) | None => ts end in
      do ts <- push_op IF ts c;
      Ok (ts, None)
  end.

(** [tokenize_meta], eval/examples/adder.rs:183-185. *)
Definition tokenize_meta {A} (IF : IFace token A) (st : A * option N) (m : level * option name) : A * option N :=
  let (ts, part) := st in (if_archive ts m, part).

(** [tokenize_final], eval/examples/adder.rs:187-191. *)
Definition tokenize_final {A} (IF : IFace token A) (st : A * option N) : A :=
  let (ts, part) := st in
  match part with Some num => seq_push ts (Num num) | None => ts end.

(** [parse_step], eval/examples/adder.rs:193-208. *)
Definition parse_step {A} (IF : IFace N A) (n : A) (t : token) : res A :=
  match t with
  | Num a => Ok (seq_push n a)
  | OpPlus =>
      do ' (b, n) <- seq_pop n;
      match b with
      | Some b =>
          do ' (a, n) <- seq_pop n;
          match a with
          | Some a => Ok (seq_push n (u32_madd a 1 b))
          | None => Ok (seq_push n b)
          end
      | None => Ok n
      end
  end.

(** The two folds over a tree, [MFolder] with [EvalIRaz],
    eval/examples/adder.rs:232-253, eval/src/eval_iraz.rs:381-395. *)
Definition tokenize_tree {M A} {RM : RazMeta N M} (IF : IFace token A) (t : raz_tree N M) : res A :=
  do st <- rt_fold_lr_meta t (Ok (if_new, None))
    (fun a c => do st <- a; tokenize_step IF st c)
    (fun a m => do st <- a; Ok (tokenize_meta IF st m));
  Ok (tokenize_final IF st).
Definition parse_tree {M A} {RM : RazMeta token M} (IF : IFace N A) (t : raz_tree token M) : res A :=
  rt_fold_lr_meta t (Ok if_new)
    (fun a c => do n <- a; parse_step IF n c)
    (fun a m => do n <- a; Ok (if_archive n m)).

(** The incremental pipeline, eval/examples/adder.rs:231-254 and 312-315: archive
    stack of tokens, converted at its tail ([IncrementalFrom] with [AtTail],
    eval/src/eval_iraz.rs:88-97), parsed into an archive stack. *)
Definition adder_inc {M M'} {RM : RazMeta N M} {RM' : RazMeta token M'} (t : raz_tree N M)
    : res (astack N level) :=
  do ts <- tokenize_tree (astack_iface token) t;
  do tr <- from_at_tail (M := M') ts;
  parse_tree (astack_iface N) tr.

(** The folds over a vector, [MFolder] with [EvalVec], eval/src/eval_vec.rs:179-193. *)
Fixpoint fold_res {S X} (f : S -> X -> res S) (l : list X) (s : S) : res S :=
  match l with
  | [] => Ok s
  | x :: r => do s' <- f s x; fold_res f r s'
  end.
Definition tokenize_vec {A} (IF : IFace token A) (v : list N) : res A :=
  do st <- fold_res (tokenize_step IF) v (if_new, None);
  Ok (tokenize_final IF st).

(** The non-incremental pipeline, eval/examples/adder.rs:270-293 and 304-307. *)
Definition adder_vec (v : list N) : res (list N) :=
  do ts <- tokenize_vec (vec_iface token) v;
  fold_res (parse_step (vec_iface N)) ts [].

(** [reference::tokenize], eval/examples/adder.rs:64-82. *)
Definition ref_step (st : list token * option N) (c : N) : res (list token * option N) :=
  let (ts, part) := st in
  match to_digit c with
  | Some num => Ok (ts, Some (match part with None => num | Some p => u32_madd p 10 num end))
  | None =>
      let ts := match part with Some num => ts ++ [Num num] | None => ts end in
      if (c =? 43)%N then Ok (ts ++ [OpPlus], None)
      else if (c =? 44)%N then Ok (ts, None)
      else Panic "invalid char"
  end.
Definition ref_tokenize (p : list N) : res (list token) :=
  do st <- fold_res ref_step p ([], None); Ok (fst st).

(** [reference::parse], eval/examples/adder.rs:84-100. *)
Definition ref_parse_step (n : list N) (t : token) : list N :=
  match t with
  | Num a => n ++ [a]
  | OpPlus =>
      let (b, n) := vec_pop n in
      match b with
      | Some b =>
          let (a, n) := vec_pop n in
          match a with
          | Some a => n ++ [u32_madd a 1 b]
          | None => n ++ [b]
          end
      | None => n
      end
  end.
Definition ref_parse (toks : list token) : list N := fold_left ref_parse_step toks [].
