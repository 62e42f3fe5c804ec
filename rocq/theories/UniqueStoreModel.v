(** * The computation of eval/examples/unique_elms.rs over a store of named cells.

    As [unique_elms] of ExampleModel.v, with the skiplist of SkipStoreModel.v: the
    accumulator of the fold carries the store along, since the fold goes through the
    elements one by one. [memo!] is a call. All is done in the one namespace that
    HFolder enters (eval/src/actions.rs:522). *)

From Verif Require Import Base StoreModel RazMetaModel RazModel SkiplistModel SkipStoreModel.

Section Unique.
Context {E M : Type} {RM : RazMeta E M}.
Notation raz_tree := (raz_tree E M).

(** eval/examples/unique_elms.rs:99-103, the closures given to HFolder::new. *)
Definition us_put (keqb : E -> E -> bool) (my_hash : E -> N) (debug : bool) (q : list name)
    (a : res (cells E unit * sskiplist)) (e : E) : res (cells E unit * sskiplist) :=
  do ' (st, s) <- a; ssk_put keqb my_hash debug q st s e tt.
Definition us_archive (a : res (cells E unit * sskiplist)) (nm : option name) : res (cells E unit * sskiplist) :=
  match nm with
  | None => a
  | Some nm => do ' (st, s) <- a; Ok (st, ssk_archive s nm)
  end.

(** eval/examples/unique_elms.rs:97-106. *)
Definition unique_elms_store (keqb : E -> E -> bool) (my_hash : E -> N) (debug : bool) (pathlen : nat)
    (q : list name) (st : cells E unit) (t : raz_tree) : res (cells E unit * sskiplist) :=
  rt_fold_lr_archive t (Ok (st, ssk_archive (ssk_emp pathlen NUnit) NUnit))
    (us_put keqb my_hash debug q) us_archive (fun a _ => a).
End Unique.
