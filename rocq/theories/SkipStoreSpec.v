(** * Specification: scripts on several skiplists that share one store.

    A skiplist is [Clone] (src/skiplist.rs:35), so that any number of handles, old
    and new versions among them, can be in use. Each operation names the handle it is
    done on and the namespace it is done in. The reference keeps one list of bindings
    for each handle (MapScripts.v). *)

From Verif Require Import Base Spec StoreModel SkiplistModel MapScripts SkipStoreModel.

Fixpoint update {X} (i : nat) (x : X) (l : list X) : list X :=
  match l, i with
  | [], _ => []
  | _ :: l', O => x :: l'
  | y :: l', S i' => y :: update i' x l'
  end.

(** The names of the archive points that have one. *)
Definition named_marks {E M} (l : list (atom E M)) : list name :=
  flat_map (fun x => match x with Mark _ (Some n) => [n] | _ => [] end) l.

Section SkipStoreSpec.
Context {K V : Type} (keqb : K -> K -> bool).

(** New handles get the next number: [emp(len, n)], [h.clone()]; any operation on
    the handle [h] in the namespace [q]. *)
Inductive h_op : Type :=
| HEmp (len : nat) (n : name)
| HClone (h : nat)
| HDo (h : nat) (q : list name) (op : map_op K V).

(** What is to be returned: as if every handle were a map of its own. *)
Definition h_spec_step (hs : list (@history K V)) (o : h_op) : option (option V) * list (@history K V) :=
  match o with
  | HEmp _ _ => (None, hs ++ [[]])
  | HClone i => match nth_error hs i with Some h => (None, hs ++ [h]) | None => (None, hs) end
  | HDo i _ op =>
      match nth_error hs i with
      | Some h => let '(r, h') := map_spec_step keqb h op in (r, update i h' hs)
      | None => (None, hs)
      end
  end.
Fixpoint h_spec_run (hs : list (@history K V)) (ops : list h_op) : list (option (option V)) :=
  match ops with
  | [] => []
  | o :: ops' => let '(r, hs') := h_spec_step hs o in r :: h_spec_run hs' ops'
  end.

(** Which cells are written, from the script alone: a handle has the name last given
    to it, and a number that starts at 1 for a new one and at 0 when archived; each
    of ext, put and rem writes the cell of both in the namespace in force. *)
Definition extends (op : map_op K V) : bool :=
  match op with MExt _ _ | MPut _ _ | MRem _ => true | MGet _ | MArchive _ => false end.
Definition h_write_step (hs : list (name * N)) (o : h_op) : list loc * list (name * N) :=
  match o with
  | HEmp _ n => ([], hs ++ [(n, 1%N)])
  | HClone i => match nth_error hs i with Some h => ([], hs ++ [h]) | None => ([], hs) end
  | HDo i q op =>
      match nth_error hs i with
      | None => ([], hs)
      | Some (n, c) =>
          match op with
          | MArchive m => ([], update i (m, 0%N) hs)
          | _ => if extends op then ([(q, NPair n (NNum c))], update i (n, (c + 1)%N) hs) else ([], hs)
          end
      end
  end.
Fixpoint h_writes (hs : list (name * N)) (ops : list h_op) : list loc :=
  match ops with
  | [] => []
  | o :: ops' => let '(w, hs') := h_write_step hs o in w ++ h_writes hs' ops'
  end.

(** The lengths that do not panic by themselves (C43). *)
Definition lengths_fine (debug : bool) (ops : list h_op) : Prop :=
  forall len n, In (HEmp len n) ops -> 0 < len /\ (debug = true -> len < 64).

(** All of the same length. *)
Definition same_length (L : nat) (ops : list h_op) : Prop :=
  forall len n, In (HEmp len n) ops -> len = L.

(** One handle, one namespace, and the names it is given. *)
Definition alone (len : nat) (n : name) (q : list name) (ops : list (map_op K V)) : list h_op :=
  HEmp len n :: map (HDo 0 q) ops.
Definition archived (ops : list (map_op K V)) : list name :=
  flat_map (fun op => match op with MArchive m => [m] | _ => [] end) ops.

(** What an operation binds, and which key it asks for. *)
Definition binds (op : map_op K V) : option (K * option V) :=
  match op with MExt k o => Some (k, o) | MPut k v => Some (k, Some v) | MRem k => Some (k, None) | _ => None end.
Definition asks (op : map_op K V) : option K :=
  match op with MExt k _ | MRem k | MGet k => Some k | _ => None end.

(** The script on the modelled skiplists; an operation on a handle that is not there
    does nothing. *)
Context (my_hash : K -> N) (debug : bool).
Notation cells := (cells K V).

Definition h_step (st : cells) (hs : list sskiplist) (o : h_op)
  : res (option (option V) * cells * list sskiplist) :=
  match o with
  | HEmp len n => Ok (None, st, hs ++ [ssk_emp len n])
  | HClone i => match nth_error hs i with Some s => Ok (None, st, hs ++ [s]) | None => Ok (None, st, hs) end
  | HDo i q op =>
      match nth_error hs i with
      | None => Ok (None, st, hs)
      | Some s =>
          match op with
          | MExt k o => do ' (r, st', s') <- ssk_ext keqb my_hash debug q st s k o; Ok (Some r, st', update i s' hs)
          | MPut k v => do ' (st', s') <- ssk_put keqb my_hash debug q st s k v; Ok (None, st', update i s' hs)
          | MRem k => do ' (r, st', s') <- ssk_rem keqb my_hash debug q st s k; Ok (Some r, st', update i s' hs)
          | MGet k => do r <- ssk_get keqb my_hash debug st s k; Ok (Some r, st, hs)
          | MArchive n => Ok (None, st, update i (ssk_archive s n) hs)
          end
      end
  end.
Fixpoint h_run (st : cells) (hs : list sskiplist) (ops : list h_op)
  : res (list (option (option V)) * cells) :=
  match ops with
  | [] => Ok ([], st)
  | o :: ops' =>
      do ' (r, st', hs') <- h_step st hs o;
      do ' (rs, st'') <- h_run st' hs' ops';
      Ok (r :: rs, st'')
  end.

End SkipStoreSpec.
Arguments h_op : clear implicits.
