(** * Scripts over an accumulator, and the plain stack they are compared with. *)

From Verif Require Import Base AccumModel.

Inductive iop (T : Type) : Type :=
| IPush (x : T)
| IPop
| IArchive (m : level * option name).
Arguments IPush {T} x.
Arguments IPop {T}.
Arguments IArchive {T} m.

(** What the calls return ([None]: nothing). *)
Definition istep {T A} (IF : IFace T A) (a : A) (o : iop T) : res (option (option T) * A) :=
  match o with
  | IPush x => Ok (None, seq_push a x)
  | IPop => do ' (x, a') <- seq_pop a; Ok (Some x, a')
  | IArchive m => Ok (None, if_archive a m)
  end.
Fixpoint irun {T A} (IF : IFace T A) (a : A) (ops : list (iop T)) : res (list (option (option T)) * A) :=
  match ops with
  | [] => Ok ([], a)
  | o :: r =>
      do ' (x, a1) <- istep IF a o;
      do ' (xs, a2) <- irun IF a1 r;
      Ok (x :: xs, a2)
  end.

(** The plain stack, newest first: archiving does nothing at all. *)
Fixpoint lifo {T} (l : list T) (ops : list (iop T)) : list (option (option T)) :=
  match ops with
  | [] => []
  | IPush x :: r => None :: lifo (x :: l) r
  | IPop :: r => Some (hd_error l) :: lifo (tl l) r
  | IArchive _ :: r => None :: lifo l r
  end.

(** The levels given to archive calls satisfy [ok]. *)
Definition iop_levels {T} (ok : level -> Prop) (o : iop T) : Prop :=
  match o with IArchive m => ok (fst m) | _ => True end.

(** From now on [a] answers as the plain stack [l]. *)
Definition answers_as {T A} (IF : IFace T A) (ok : level -> Prop) (a : A) (l : list T) : Prop :=
  forall ops, Forall (iop_levels ok) ops -> exists a', irun IF a ops = Ok (lifo l ops, a').

(** The accumulator, starting empty, is a plain stack. *)
Definition is_lifo {T A} (IF : IFace T A) (ok : level -> Prop) : Prop := answers_as IF ok if_new [].
