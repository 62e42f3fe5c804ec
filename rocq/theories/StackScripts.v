(** * Scripts: the calls a client makes, run on the model.

    These only sequence the model's functions and record what they return. *)

From Verif Require Import Base Spec StackModel AStackModel.

(** ** Stack (src/stack.rs) *)
Inductive sop (T : Type) : Type :=
| SPush (nm : option name) (e : T)
| SPull.
Arguments SPush {T} nm e.
Arguments SPull {T}.

(** [s = s.pull().unwrap_or(s)] for [SPull]. *)
Definition stack_step {T} (s : stack T) (o : sop T) : stack T :=
  match o with
  | SPush nm e => stack_push s nm e
  | SPull => match stack_pull s with Some s' => s' | None => s end
  end.
Definition stack_run {T} (ops : list (sop T)) : stack T := fold_left stack_step ops stack_new.

(** Abstract counterpart: a list of (name, element). *)
Definition list_step {T} (l : list (option name * T)) (o : sop T) : list (option name * T) :=
  match o with
  | SPush nm e => (nm, e) :: l
  | SPull => tl l
  end.
Definition list_run {T} (ops : list (sop T)) : list (option name * T) := fold_left list_step ops [].

(** Call [iter.name(); iter.next()] [n] times. *)
Fixpoint iter_take {T} (n : nat) (i : iter T) : list (option name * option T) * iter T :=
  match n with
  | O => ([], i)
  | S n =>
      let nm := iter_name i in
      let (e, i') := iter_next i in
      let (l, i'') := iter_take n i' in
      ((nm, e) :: l, i'')
  end.

(** ** AStack (src/archive_stack.rs) *)
Section AStack.
Context {E M : Type}.

Definition as_step (s : astack E M) (o : aop E M) : res (aobs E M * astack E M) :=
  match o with
  | OpPush e => Ok (SeeNothing, as_push s e)
  | OpExtend v => Ok (SeeNothing, as_extend s v)
  | OpPop => do ' (x, s') <- as_pop s; Ok (SeeElt x, s')
  | OpPopMeta => do ' (x, s') <- as_pop_meta s; Ok (SeeEltMeta x, s')
  | OpPeek => do x <- as_peek s; Ok (SeeElt x, s)
  | OpArchive nm m => let (b, s') := as_archive s nm m in Ok (SeeBool b, s')
  | OpNextArchive => do ' (x, s') <- as_next_archive s; Ok (SeeArchive x, s')
  | OpName => Ok (SeeName (as_name s), s)
  | OpActiveLen => Ok (SeeLen (as_active_len s), s)
  | OpActiveData => Ok (SeeData (as_active_data s), s)
  | OpIsEmpty => Ok (SeeBool (as_is_empty s), s)
  end.

Fixpoint as_run (s : astack E M) (ops : list (aop E M)) : res (list (aobs E M) * astack E M) :=
  match ops with
  | [] => Ok ([], s)
  | o :: r =>
      do ' (x, s1) <- as_step s o;
      do ' (xs, s2) <- as_run s1 r;
      Ok (x :: xs, s2)
  end.

(** [n] calls of the iterator's [next]. *)
Fixpoint as_iter_take (n : nat) (s : astack E M) : res (list (option E) * astack E M) :=
  match n with
  | O => Ok ([], s)
  | S n =>
      do ' (e, s1) <- as_iter_next s;
      do ' (l, s2) <- as_iter_take n s1;
      Ok (e :: l, s2)
  end.

(** [n] calls of [next_archive]. *)
Fixpoint as_drain (n : nat) (s : astack E M)
    : res (list (option (list E * option M)) * astack E M) :=
  match n with
  | O => Ok ([], s)
  | S n =>
      do ' (x, s1) <- as_next_archive s;
      do ' (l, s2) <- as_drain n s1;
      Ok (x :: l, s2)
  end.

(** Push a vector element by element, then archive it; a list of such groups. *)
Definition as_push_all (s : astack E M) (v : list E) : astack E M := fold_left as_push v s.
Definition as_push_group (s : astack E M) (g : list E * option name * M) : astack E M :=
  let '(v, nm, m) := g in snd (as_archive (as_push_all s v) nm m).
Definition as_push_groups (gs : list (list E * option name * M)) : astack E M :=
  fold_left as_push_group gs as_new.

End AStack.
