(** * Specification of the Raz: a zipper over atoms.

    Plain list code; nothing here refers to the model files. *)

From Verif Require Import Base Spec.

Section SpecRaz.
Context {E : Type}.
Notation atoms := (list (atom E level)).

(** Left and right of the cursor, nearest atom first. [s_lnew] / [s_rnew] count the
    archive points placed on that side since the focus (they are the nearest ones);
    only [sz_unfocus] looks at them. *)
Record sraz : Type := SRaz {
  s_left : atoms;
  s_right : atoms;
  s_lnew : nat;
  s_rnew : nat
}.

Definition sz_new : sraz := SRaz [] [] 0 0.

(** The name an archive point carries in the tree: the given name paired with "tree". *)
Definition point_name (n : option name) : option name :=
  option_map (fun n => NPair n (NStr "tree")) n.

Definition is_mark (l : atoms) : bool := match l with Mark _ _ :: _ => true | _ => false end.
Definition is_elt (l : atoms) : bool := match l with Elt _ :: _ => true | _ => false end.

Definition sz_push_left (z : sraz) (e : E) : nat * sraz :=
  let l := sp_push (s_left z) e in
  (length (run l), SRaz l (s_right z) (s_lnew z) (s_rnew z)).
Definition sz_push_right (z : sraz) (e : E) : nat * sraz :=
  let r := sp_push (s_right z) e in
  (length (run r), SRaz (s_left z) r (s_lnew z) (s_rnew z)).

Definition sz_pop_left (z : sraz) : option E * sraz :=
  let (x, l) := sp_pop (s_left z) in
  (x, SRaz l (s_right z) (if is_mark (s_left z) then pred (s_lnew z) else s_lnew z) (s_rnew z)).
Definition sz_pop_right (z : sraz) : option E * sraz :=
  let (x, r) := sp_pop (s_right z) in
  (x, SRaz (s_left z) r (s_lnew z) (if is_mark (s_right z) then pred (s_rnew z) else s_rnew z)).

Definition sz_peek_left (z : sraz) : option E := sp_peek (s_left z).
Definition sz_peek_right (z : sraz) : option E := sp_peek (s_right z).

Definition sz_archive_left (z : sraz) (lev : level) (nm : option name) : sraz :=
  let (b, l) := sp_archive (s_left z) (point_name nm) lev in
  SRaz l (s_right z) (if b then S (s_lnew z) else s_lnew z) (s_rnew z).
Definition sz_archive_right (z : sraz) (lev : level) (nm : option name) : sraz :=
  let (b, r) := sp_archive (s_right z) (point_name nm) lev in
  SRaz (s_left z) r (s_lnew z) (if b then S (s_rnew z) else s_rnew z).

(** The sequence after unfocusing. Archive points facing each other over an empty
    cursor position, or facing an end of the sequence, would leave an empty run:
    exactly one of them is dropped. *)
Definition sz_unfocus (z : sraz) : atoms :=
  match s_left z, s_right z with
  | [], [] => []
  | Mark _ _ :: l, [] => rev l
  | [], Mark _ _ :: r => r
  | Mark _ _ :: l, Mark _ _ :: r =>
      if (s_lnew z =? 0) && (0 <? s_rnew z)
      then rev (s_left z) ++ r
      else rev l ++ s_right z
  | _, _ => rev (s_left z) ++ s_right z
  end.

(** The shortest prefix with [i] elements, and the rest. *)
Fixpoint split_count (i : nat) (l : atoms) : atoms * atoms :=
  match i, l with
  | O, _ => ([], l)
  | _, [] => ([], [])
  | S i', Elt e :: r => let (a, b) := split_count i' r in (Elt e :: a, b)
  | S _, Mark m n :: r => let (a, b) := split_count i r in (Mark m n :: a, b)
  end.

(** Cursor between [pre] and [post]. *)
Definition sz_at (pre post : atoms) : sraz := SRaz (rev pre) post 0 0.
Definition sz_focus_count (i : nat) (l : atoms) : sraz :=
  let (a, b) := split_count i l in sz_at a b.

(** Cursor just before the first archive point with that name. *)
Fixpoint split_name (n : name) (l : atoms) : option (atoms * atoms) :=
  match l with
  | [] => None
  | Elt e :: r => option_map (fun p => (Elt e :: fst p, snd p)) (split_name n r)
  | Mark m n' :: r =>
      if oname_eq_dec n' (Some n) then Some ([], l)
      else option_map (fun p => (Mark m n' :: fst p, snd p)) (split_name n r)
  end.

(** Left fold over elements and archive points. *)
Definition sp_visit {R} (bin : R -> E -> R) (meta : R -> level * option name -> R) (acc : R)
    (x : atom E level) : R :=
  match x with
  | Elt e => bin acc e
  | Mark m n => meta acc (m, n)
  end.

(** Fold each run's elements, then [fin] with the name of the archive point before
    the run ([prev] for the first), then [meta] with the level of the one after it. *)
Fixpoint sp_lr_archive {R} (bin : R -> E -> R) (fin : R -> option name -> R)
    (meta : R -> level -> R) (prev : option name) (acc : R) (l : atoms) : R :=
  match l with
  | [] => fin acc prev
  | Elt e :: r => sp_lr_archive bin fin meta prev (bin acc e) r
  | Mark m n :: r => sp_lr_archive bin fin meta n (meta (fin acc prev) m) r
  end.

End SpecRaz.
Arguments sraz E : clear implicits.

(** Reduction of a non-empty list from left to right. *)
Definition reduce {R} (bin : R -> R -> R) (l : list R) : option R :=
  match l with
  | [] => None
  | x :: r => Some (fold_left bin r x)
  end.

(** Elementwise map; archive points stay. *)
Definition sp_map {E R M} (f : E -> R) (l : list (atom E M)) : list (atom R M) :=
  map (fun x => match x with Elt e => Elt (f e) | Mark m n => Mark m n end) l.

(** ** Scripts over a Raz and what a caller sees *)
Inductive zop (E : Type) : Type :=
| OPushL (e : E)
| OPushR (e : E)
| OPopL
| OPopR
| OPeekL
| OPeekR
| OArchL (lev : level) (nm : option name)
| OArchR (lev : level) (nm : option name).
Arguments OPushL {E} e.
Arguments OPushR {E} e.
Arguments OPopL {E}.
Arguments OPopR {E}.
Arguments OPeekL {E}.
Arguments OPeekR {E}.
Arguments OArchL {E} lev nm.
Arguments OArchR {E} lev nm.

Inductive zout (E : Type) : Type :=
| OutNone
| OutLen (n : nat)
| OutElt (o : option E).
Arguments OutNone {E}.
Arguments OutLen {E} n.
Arguments OutElt {E} o.

(** Levels given to archive calls are at least 1. *)
Definition zop_ok {E} (o : zop E) : Prop :=
  match o with OArchL lev _ | OArchR lev _ => (1 <= lev)%N | _ => True end.

(** On the zipper over atoms. *)
Definition sz_step {E} (z : sraz E) (o : zop E) : zout E * sraz E :=
  match o with
  | OPushL e => let (n, z') := sz_push_left z e in (OutLen n, z')
  | OPushR e => let (n, z') := sz_push_right z e in (OutLen n, z')
  | OPopL => let (x, z') := sz_pop_left z in (OutElt x, z')
  | OPopR => let (x, z') := sz_pop_right z in (OutElt x, z')
  | OPeekL => (OutElt (sz_peek_left z), z)
  | OPeekR => (OutElt (sz_peek_right z), z)
  | OArchL lev nm => (OutNone, sz_archive_left z lev nm)
  | OArchR lev nm => (OutNone, sz_archive_right z lev nm)
  end.
Fixpoint sz_run {E} (z : sraz E) (ops : list (zop E)) : list (zout E) * sraz E :=
  match ops with
  | [] => ([], z)
  | o :: r =>
      let (x, z1) := sz_step z o in
      let (xs, z2) := sz_run z1 r in
      (x :: xs, z2)
  end.

(** On a pair of element lists (nearest to the cursor first): archiving does
    nothing at all. [None] where no element is answered. *)
Definition zip_step {E} (z : list E * list E) (o : zop E) : option (option E) * (list E * list E) :=
  let (l, r) := z in
  match o with
  | OPushL e => (None, (e :: l, r))
  | OPushR e => (None, (l, e :: r))
  | OPopL => (Some (hd_error l), (tl l, r))
  | OPopR => (Some (hd_error r), (l, tl r))
  | OPeekL => (Some (hd_error l), (l, r))
  | OPeekR => (Some (hd_error r), (l, r))
  | OArchL _ _ | OArchR _ _ => (None, (l, r))
  end.
Fixpoint zip_run {E} (z : list E * list E) (ops : list (zop E))
    : list (option (option E)) * (list E * list E) :=
  match ops with
  | [] => ([], z)
  | o :: r =>
      let (x, z1) := zip_step z o in
      let (xs, z2) := zip_run z1 r in
      (x :: xs, z2)
  end.
Definition zanswer {E} (x : zout E) : option (option E) :=
  match x with OutElt o => Some o | _ => None end.
