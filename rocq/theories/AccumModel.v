(** * Model of eval/src/accum_lists.rs and eval/src/interface.rs. *)

From Verif Require Import Base StackModel AStackModel LevelTreeModel TreeCursorModel RazMetaModel RazModel.

(** [IFaceSeq], [IFaceArchive<(u32,Option<Name>)>] and [IFaceNew],
    eval/src/interface.rs:12-25, as one class: the folds of the examples need all
    three. [seq_pop] may panic. *)
Class IFace (T A : Type) : Type := {
  if_new : A;
  seq_push : A -> T -> A;
  seq_pop : A -> res (option T * A);
  if_archive : A -> level * option name -> A
}.

(** [List], eval/src/accum_lists.rs:5-11, and [RcList], 42-48. [Box] and [Rc] are
    not modelled, so the two types have the same model. *)
Inductive acc_list (X : Type) : Type :=
| LNil
| LCons (x : X) (l : acc_list X)
| LName (n : name) (l : acc_list X)
| LArt (l : acc_list X).
Arguments LNil {X}.
Arguments LCons {X} x l.
Arguments LName {X} n l.
Arguments LArt {X} l.

(** [seq_pop], eval/src/accum_lists.rs:17-24 and 54-61; [force] reads the content. *)
Fixpoint list_pop {X} (l : acc_list X) : option X * acc_list X :=
  match l with
  | LNil => (None, LNil)
  | LCons v bl => (Some v, bl)
  | LName _ bl => list_pop bl
  | LArt al => list_pop al
  end.

(** [archive], eval/src/accum_lists.rs:28-33 and 65-70; [cell] stores the content. *)
Definition list_archive {X} (l : acc_list X) (m : level * option name) : acc_list X :=
  match snd m with
  | None => l
  | Some n => LName n (LArt l)
  end.

(** The impls for [List] and [RcList], eval/src/accum_lists.rs:13-40 and 50-77. *)
#[export] Instance list_iface (X : Type) : IFace X (acc_list X) := {
  if_new := LNil;
  seq_push l v := LCons v l;
  seq_pop l := Ok (list_pop l);
  if_archive := list_archive
}.

(** [VecList], eval/src/accum_lists.rs:79-85, and [RcVecList], 129-135. *)
Inductive vec_list (X : Type) : Type :=
| VNil
| VCons (v : list X) (l : vec_list X)
| VName (n : name) (l : vec_list X)
| VArt (l : vec_list X).
Arguments VNil {X}.
Arguments VCons {X} v l.
Arguments VName {X} n l.
Arguments VArt {X} l.

(** [seq_push], eval/src/accum_lists.rs:88-96 and 138-146. *)
Definition vl_push {X} (l : vec_list X) (val : X) : vec_list X :=
  match l with
  | VCons v bl => VCons (v ++ [val]) bl
  | _ => VCons [val] l
  end.

(** [seq_pop], eval/src/accum_lists.rs:97-111 and 147-161. *)
Fixpoint vl_pop {X} (l : vec_list X) : res (option X * vec_list X) :=
  match l with
  | VNil => Ok (None, VNil)
  | VCons vec bl =>
      let (o, vec) := vec_pop vec in
      do v <- unwrap "unwrap on None" o;
      match vec with
      | [] => Ok (Some v, bl)
      | _ => Ok (Some v, VCons vec bl)
      end
  | VName _ bl => vl_pop bl
  | VArt al => vl_pop al
  end.

(** [archive], eval/src/accum_lists.rs:115-120 and 165-170. *)
Definition vl_archive {X} (l : vec_list X) (m : level * option name) : vec_list X :=
  match snd m with
  | None => l
  | Some n => VName n (VArt l)
  end.

(** The impls for [VecList] and [RcVecList], eval/src/accum_lists.rs:87-127, 137-177. *)
#[export] Instance vl_iface (X : Type) : IFace X (vec_list X) := {
  if_new := VNil;
  seq_push := vl_push;
  seq_pop := vl_pop;
  if_archive := vl_archive
}.

(** The impls for [IRaz], eval/src/interface.rs:31-53. *)
#[export] Instance raz_iface (X M : Type) (RM : RazMeta X M) : IFace X (raz X M) := {
  if_new := raz_new;
  seq_push z v := snd (push_left z v);
  seq_pop z := pop_left z;
  if_archive z m := archive_left z (fst m) (snd m)
}.

(** The impls for [IAStack<T,u32>], eval/src/interface.rs:59-75 and 85-89. *)
#[export] Instance astack_iface (X : Type) : IFace X (astack X level) := {
  if_new := as_new;
  seq_push := as_push;
  seq_pop := as_pop;
  if_archive s m := snd (as_archive s (snd m) (fst m))
}.

(** The impls for [IAStack<T,()>], which drop the metadata,
    eval/src/interface.rs:59-68, 77-89. *)
#[export] Instance astack_unit_iface (X : Type) : IFace X (astack X unit) := {
  if_new := as_new;
  seq_push := as_push;
  seq_pop := as_pop;
  if_archive s m := snd (as_archive s (snd m) tt)
}.

(** The impls for [Vec], eval/src/interface.rs:95-115. *)
#[export] Instance vec_iface (X : Type) : IFace X (list X) := {
  if_new := [];
  seq_push v val := v ++ [val];
  seq_pop v := Ok (vec_pop v);
  if_archive v _ := v
}.
