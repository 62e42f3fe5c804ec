(** * Specification for programs over a mutable store.

    Plain list code; nothing here refers to the model files. *)

From Verif Require Import Base SpecRaz.

(** ** Stacks as lists *)
Inductive kcmd (T : Type) : Type :=
| KNew
| KPush (i : nat) (nm : option name) (e : T)
| KPull (i : nat)
| KPeek (i : nat)
| KName (i : nat)
| KEmpty (i : nat)
| KTake (n : nat) (i : nat).
Arguments KNew {T}.
Arguments KPush {T} i nm e.
Arguments KPull {T} i.
Arguments KPeek {T} i.
Arguments KName {T} i.
Arguments KEmpty {T} i.
Arguments KTake {T} n i.

Inductive kout (T : Type) : Type :=
| KDone | KNothing | KBad
| KElt (x : option T)
| KNm (n : option name)
| KBool (b : bool)
| KList (l : list T).
Arguments KDone {T}.
Arguments KNothing {T}.
Arguments KBad {T}.
Arguments KElt {T} x.
Arguments KNm {T} n.
Arguments KBool {T} b.
Arguments KList {T} l.

Section Stack.
Context {T : Type}.
Notation slist := (list (option name * T)).

(** What the program sees when stacks are immutable lists of named elements. *)
Definition kl_step (p : list slist) (c : kcmd T) : kout T * list slist :=
  match c with
  | KNew => (KDone, p ++ [[]])
  | KPush i nm e =>
      match nth_error p i with Some l => (KDone, p ++ [(nm, e) :: l]) | None => (KBad, p) end
  | KPull i =>
      match nth_error p i with
      | Some (_ :: l) => (KDone, p ++ [l])
      | Some [] => (KNothing, p)
      | None => (KBad, p)
      end
  | KPeek i =>
      match nth_error p i with
      | Some l => (KElt (option_map snd (hd_error l)), p)
      | None => (KBad, p)
      end
  | KName i =>
      match nth_error p i with
      | Some l => (KNm match l with [] => None | (nm, _) :: _ => nm end, p)
      | None => (KBad, p)
      end
  | KEmpty i =>
      match nth_error p i with
      | Some l => (KBool match l with [] => true | _ => false end, p)
      | None => (KBad, p)
      end
  | KTake n i =>
      match nth_error p i with
      | Some l => (KList (firstn n (map snd l)), p)
      | None => (KBad, p)
      end
  end.
Fixpoint kl_run (p : list slist) (cs : list (kcmd T)) : list (kout T) * list slist :=
  match cs with
  | [] => ([], p)
  | c :: r =>
      let (x, p1) := kl_step p c in
      let (xs, p2) := kl_run p1 r in
      (x :: xs, p2)
  end.
End Stack.

(** The names a program creates cells under. *)
Definition names_of (o : option name) : list name := match o with None => [] | Some n => [n] end.
Definition k_names {T} (c : kcmd T) : list name :=
  match c with KPush _ nm _ => names_of nm | _ => [] end.

(** ** Raz programs; the meaning of the commands is in StoreScripts. *)
Inductive cmd (E I : Type) : Type :=
| CEmpty
| CVec (v : list E)
| CRaz
| CJoin (i : nat) (lev : level) (nm : option name) (j : nat)
| CFocus (i : nat) (x : I)
| CFocusLeft (i : nat)
| CUnfocus (i : nat)
| CStep (i : nat) (o : zop E)
| CRead (i : nat)
| CClone (i : nat)
| CDrop (i : nat).
Arguments CEmpty {E I}.
Arguments CVec {E I} v.
Arguments CRaz {E I}.
Arguments CJoin {E I} i lev nm j.
Arguments CFocus {E I} i x.
Arguments CFocusLeft {E I} i.
Arguments CUnfocus {E I} i.
Arguments CStep {E I} i o.
Arguments CRead {E I} i.
Arguments CClone {E I} i.
Arguments CDrop {E I} i.

(** An archive point makes a stack cell and, at the next [unfocus], a tree cell. *)
Definition c_names {E I} (c : cmd E I) : list name :=
  match c with
  | CStep _ (OArchL _ nm) | CStep _ (OArchR _ nm) => names_of nm ++ names_of (point_name nm)
  | CJoin _ _ nm _ => names_of nm
  | _ => []
  end.
Definition is_clone {E I} (c : cmd E I) : bool := match c with CClone _ => true | _ => false end.
