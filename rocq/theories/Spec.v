(** * Specification vocabulary.

    Plain list code, independent of the model: a sequence with archive points is
    a list of atoms. Nothing here refers to the model files. *)

From Verif Require Import Base.

(** An element of the sequence, or an archive point carrying metadata (for the
    Raz: its level) and an optional name. *)
Inductive atom (E M : Type) : Type :=
| Elt (e : E)
| Mark (m : M) (nm : option name).
Arguments Elt {E M} e.
Arguments Mark {E M} m nm.

Section Atoms.
Context {E M : Type}.
Implicit Types (l : list (atom E M)).

(** The elements, archive points erased. *)
Fixpoint elts l : list E :=
  match l with
  | [] => []
  | Elt e :: r => e :: elts r
  | Mark _ _ :: r => elts r
  end.

(** The archive points, elements erased. *)
Fixpoint marks l : list (M * option name) :=
  match l with
  | [] => []
  | Elt _ :: r => marks r
  | Mark m n :: r => (m, n) :: marks r
  end.

(** The leading elements and what follows the first archive point. *)
Fixpoint run l : list E :=
  match l with Elt e :: r => e :: run r | _ => [] end.
Fixpoint after_run l : list (atom E M) :=
  match l with Elt _ :: r => after_run r | _ => l end.

(** Drop leading archive points. *)
Fixpoint drop_marks l : list (atom E M) :=
  match l with Mark _ _ :: r => drop_marks r | _ => l end.

(** ** One end of a sequence as a stack of atoms (top first) *)
Definition sp_push l (e : E) : list (atom E M) := Elt e :: l.

Definition sp_pop l : option E * list (atom E M) :=
  match drop_marks l with
  | Elt e :: r => (Some e, r)
  | _ => (None, [])
  end.

Definition sp_peek l : option E := fst (sp_pop l).

(** Archiving closes the active run; without active elements it does nothing. *)
Definition sp_archive l (nm : option name) (m : M) : bool * list (atom E M) :=
  match l with
  | Elt _ :: _ => (true, Mark m nm :: l)
  | _ => (false, l)
  end.

(** Pop together with the metadata of the archive point crossed, if any. *)
Definition sp_pop_meta l : option (E * option M) * list (atom E M) :=
  match l with
  | Elt e :: r => (Some (e, None), r)
  | Mark m _ :: Elt e :: r => (Some (e, Some m), r)
  | _ => (None, [])
  end.

(** The whole active run (oldest first), the metadata of the archive point below
    it, and what is below that. *)
Definition sp_next_archive l : option (list E * option M) * list (atom E M) :=
  match l with
  | [] => (None, [])
  | _ =>
      match after_run l with
      | Mark m _ :: r => (Some (rev (run l), Some m), r)
      | _ => (Some (rev (run l), None), [])
      end
  end.

Definition sp_name l : option name :=
  match after_run l with Mark _ n :: _ => n | _ => None end.

Definition sp_is_empty l : bool := match l with [] => true | _ => false end.

End Atoms.

(** ** Scripts over an archive stack and what a caller sees *)
Inductive aop (E M : Type) : Type :=
| OpPush (e : E)
| OpExtend (v : list E)
| OpPop
| OpPopMeta
| OpPeek
| OpArchive (nm : option name) (m : M)
| OpNextArchive
| OpName
| OpActiveLen
| OpActiveData
| OpIsEmpty.
Arguments OpPush {E M} e.
Arguments OpExtend {E M} v.
Arguments OpPop {E M}.
Arguments OpPopMeta {E M}.
Arguments OpPeek {E M}.
Arguments OpArchive {E M} nm m.
Arguments OpNextArchive {E M}.
Arguments OpName {E M}.
Arguments OpActiveLen {E M}.
Arguments OpActiveData {E M}.
Arguments OpIsEmpty {E M}.

Inductive aobs (E M : Type) : Type :=
| SeeNothing
| SeeElt (o : option E)
| SeeEltMeta (o : option (E * option M))
| SeeBool (b : bool)
| SeeArchive (o : option (list E * option M))
| SeeName (o : option name)
| SeeLen (n : nat)
| SeeData (v : list E).
Arguments SeeNothing {E M}.
Arguments SeeElt {E M} o.
Arguments SeeEltMeta {E M} o.
Arguments SeeBool {E M} b.
Arguments SeeArchive {E M} o.
Arguments SeeName {E M} o.
Arguments SeeLen {E M} n.
Arguments SeeData {E M} v.

Definition sp_step {E M} (l : list (atom E M)) (o : aop E M) : aobs E M * list (atom E M) :=
  match o with
  | OpPush e => (SeeNothing, sp_push l e)
  | OpExtend v => (SeeNothing, rev (map Elt v) ++ l)
  | OpPop => let (x, l') := sp_pop l in (SeeElt x, l')
  | OpPopMeta => let (x, l') := sp_pop_meta l in (SeeEltMeta x, l')
  | OpPeek => (SeeElt (sp_peek l), l)
  | OpArchive nm m => let (b, l') := sp_archive l nm m in (SeeBool b, l')
  | OpNextArchive => let (x, l') := sp_next_archive l in (SeeArchive x, l')
  | OpName => (SeeName (sp_name l), l)
  | OpActiveLen => (SeeLen (length (run l)), l)
  | OpActiveData => (SeeData (rev (run l)), l)
  | OpIsEmpty => (SeeBool (sp_is_empty l), l)
  end.

Fixpoint sp_run {E M} (l : list (atom E M)) (ops : list (aop E M))
    : list (aobs E M) * list (atom E M) :=
  match ops with
  | [] => ([], l)
  | o :: r =>
      let (x, l1) := sp_step l o in
      let (xs, l2) := sp_run l1 r in
      (x :: xs, l2)
  end.

(** ** The same scripts on a plain list stack, where archiving does nothing.
    ([OpNextArchive] has no counterpart there.) *)
Definition plain_step {E M} (l : list E) (o : aop E M) : option (option E) * list E :=
  match o with
  | OpPush e => (None, e :: l)
  | OpExtend v => (None, rev v ++ l)
  | OpPop | OpPopMeta => (Some (hd_error l), tl l)
  | OpPeek => (Some (hd_error l), l)
  | _ => (None, l)
  end.
Fixpoint plain_run {E M} (l : list E) (ops : list (aop E M)) : list (option (option E)) * list E :=
  match ops with
  | [] => ([], l)
  | o :: r =>
      let (x, l1) := plain_step l o in
      let (xs, l2) := plain_run l1 r in
      (x :: xs, l2)
  end.
(** What the two kinds of stack must agree on: the elements answered. *)
Definition answer {E M} (x : aobs E M) : option (option E) :=
  match x with
  | SeeElt o => Some o
  | SeeEltMeta o => Some (option_map fst o)
  | _ => None
  end.

(** ** Draining: a stack filled by archiving the vectors [older] (newest first, each
    with name and metadata) below the active vector [active]; what successive calls
    of next_archive must return: each vector with the metadata under which the next
    older one was archived. *)
Definition group_ok {E M : Type} (g : list E * option name * M) : Prop := fst (fst g) <> [].
Fixpoint drain_spec {E M} (active : list E) (older : list (list E * option name * M))
    : list (option (list E * option M)) :=
  match older with
  | [] => [Some (active, None)]
  | (v, _, m) :: r => Some (active, Some m) :: drain_spec v r
  end.
