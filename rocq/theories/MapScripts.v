(** * Specification: scripts of finite-map operations.

    The reference is a list of the bindings made so far, the newest first. A key
    is bound by the newest entry for it; [None] there means removed. *)

From Verif Require Import Base SkiplistModel.

Section MapScripts.
Context {K V : Type} (keqb : K -> K -> bool).

Inductive map_op : Type :=
| MExt (k : K) (o : option V)
| MPut (k : K) (v : V)
| MRem (k : K)
| MGet (k : K)
| MArchive (n : name).

Definition history := list (K * option V).

Fixpoint bound (h : history) (k : K) : option V :=
  match h with
  | [] => None
  | (k0, o) :: h' => if keqb k k0 then o else bound h' k
  end.

(** What an operation returns ([None] for "nothing") and the new history. *)
Definition map_spec_step (h : history) (op : map_op) : option (option V) * history :=
  match op with
  | MExt k o => (Some (bound h k), (k, o) :: h)
  | MPut k v => (None, (k, Some v) :: h)
  | MRem k => (Some (bound h k), (k, None) :: h)
  | MGet k => (Some (bound h k), h)
  | MArchive _ => (None, h)
  end.

Fixpoint map_spec_run (h : history) (ops : list map_op) : list (option (option V)) :=
  match ops with
  | [] => []
  | op :: ops' => let '(r, h') := map_spec_step h op in r :: map_spec_run h' ops'
  end.

(** The same operations on the modelled skiplist. *)
Context (my_hash : K -> N) (debug : bool).

Definition sk_step (s : skiplist K V) (op : map_op) : res (option (option V) * skiplist K V) :=
  match op with
  | MExt k o => do ' (r, s') <- sk_ext keqb my_hash debug s k o; Ok (Some r, s')
  | MPut k v => do s' <- sk_put keqb my_hash debug s k v; Ok (None, s')
  | MRem k => do ' (r, s') <- sk_rem keqb my_hash debug s k; Ok (Some r, s')
  | MGet k => do r <- sk_get keqb my_hash debug s k; Ok (Some r, s)
  | MArchive n => Ok (None, sk_archive s n)
  end.

Fixpoint sk_run (s : skiplist K V) (ops : list map_op) : res (list (option (option V))) :=
  match ops with
  | [] => Ok []
  | op :: ops' =>
      do ' (r, s') <- sk_step s op;
      do rs <- sk_run s' ops';
      Ok (r :: rs)
  end.

End MapScripts.
Arguments map_op : clear implicits.
