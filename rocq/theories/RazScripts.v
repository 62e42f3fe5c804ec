(** * Scripts over the Raz and the values a client can get hold of.

    These only sequence the model's functions and record what they return. *)

From Verif Require Import Base Spec SpecRaz StackModel AStackModel StackScripts LevelTreeModel
  TreeCursorModel RazMetaModel RazModel TreeSpec.

Section Scripts.
Context {E M : Type} {RM : RazMeta E M}.

Definition zstep (z : raz E M) (o : zop E) : res (zout E * raz E M) :=
  match o with
  | OPushL e => let (n, z') := push_left z e in Ok (OutLen n, z')
  | OPushR e => let (n, z') := push_right z e in Ok (OutLen n, z')
  | OPopL => do ' (x, z') <- pop_left z; Ok (OutElt x, z')
  | OPopR => do ' (x, z') <- pop_right z; Ok (OutElt x, z')
  | OPeekL => do x <- peek_left z; Ok (OutElt x, z)
  | OPeekR => do x <- peek_right z; Ok (OutElt x, z)
  | OArchL lev nm => Ok (OutNone, archive_left z lev nm)
  | OArchR lev nm => Ok (OutNone, archive_right z lev nm)
  end.

Fixpoint zrun (z : raz E M) (ops : list (zop E)) : res (list (zout E) * raz E M) :=
  match ops with
  | [] => Ok ([], z)
  | o :: r =>
      do ' (x, z1) <- zstep z o;
      do ' (xs, z2) <- zrun z1 r;
      Ok (x :: xs, z2)
  end.

(** What an implementation of RazMeta must provide for its index: [split_vec]
    cuts the vector in two, and the last index cuts at the end. *)
Definition lawful : Prop :=
  (forall (v : list E) i a b, split_vec v i = Ok (a, b) -> a ++ b = v) /\
  (forall v : list E, split_vec v idx_last = Ok (v, [])).

End Scripts.
Arguments lawful {E M} RM.

(** A stack that can be handed to [memo_from]: made by any script of archive stack
    calls with levels in the given range, not just archived. *)
Definition stack_for {E} (lo hi : level) (ops : list (aop E level)) (s : astack E level) : Prop :=
  (exists obs, as_run as_new ops = Ok (obs, s)) /\
  Forall (fun o => match o with OpArchive _ m => (lo <= m < hi)%N | _ => True end) ops /\
  (as_is_empty s = false -> as_active_len s <> 0).

(** Every tree and every Raz a client can obtain by calls of the API with levels >= 1,
    for all element and metadata types. [free = true] allows [join] with any level,
    [free = false] only with levels that fit the arguments. *)
Inductive tree_reached (free : bool) : forall (E M : Type) (RM : RazMeta E M), raz_tree E M -> Prop :=
| TR_empty E M RM t : rt_empty = Ok t -> tree_reached free E M RM t
| TR_from_vec E M RM v t : rt_from_vec v = Ok (Some t) -> tree_reached free E M RM t
| TR_unfocus E M RM z t : raz_reached free E M RM z -> unfocus z = Ok t -> tree_reached free E M RM t
| TR_join E M RM a lev nm b t :
    tree_reached free E M RM a -> tree_reached free E M RM b -> (1 <= lev)%N ->
    (free = false -> lev_lt (rt_tree a) lev /\ lev_le (rt_tree b) lev) ->
    rt_join a lev nm b = Ok (Some t) -> tree_reached free E M RM t
| TR_map E M RM R N RN (f : E -> R) a t :
    tree_reached free E M RM a -> rt_map f a = Ok t -> tree_reached free R N RN t
| TR_tail E M RM ops s t :
    stack_for 1%N u32_max ops s -> from_at_tail s = Ok t -> tree_reached free E M RM t
| TR_head E M RM ops s t :
    stack_for 1%N (u32_max + 1)%N ops s -> from_at_head s = Ok t -> tree_reached free E M RM t
with raz_reached (free : bool) : forall (E M : Type) (RM : RazMeta E M), raz E M -> Prop :=
| RR_new E M RM : raz_reached free E M RM raz_new
| RR_focus E M RM t i z :
    tree_reached free E M RM t -> lawful RM -> rt_focus t i = Ok (Some z) -> raz_reached free E M RM z
| RR_focus_left E M RM t z :
    tree_reached free E M RM t -> rt_focus_left t = Ok z -> raz_reached free E M RM z
| RR_step E M RM z o x z' :
    raz_reached free E M RM z -> zop_ok o -> zstep z o = Ok (x, z') -> raz_reached free E M RM z'.
Arguments tree_reached free {E M RM} t.
Arguments raz_reached free {E M RM} z.
