(** * Model of src/archive_stack.rs.

    [current] is a Rust [Vec]: index 0 first, top of the stack last. *)

From Verif Require Import Base StackModel.

(** [AStack], src/archive_stack.rs:34-40. *)
Record astack (E M : Type) : Type := AStack {
  current : list E;
  archived : stack (M * list E)
}.
Arguments AStack {E M} current archived.
Arguments current {E M} a.
Arguments archived {E M} a.

Section Ops.
Context {E M : Type}.
Implicit Types (s : astack E M).

(** [AStack::new], src/archive_stack.rs:62-67. *)
Definition as_new : astack E M := AStack [] stack_new.

(** [AStack::with_capacity], src/archive_stack.rs:70-75 (capacity is not observable). *)
Definition as_with_capacity (capacity : N) : astack E M := AStack [] stack_new.

(** [AStack::is_empty], src/archive_stack.rs:78. *)
Definition as_is_empty s : bool :=
  match current s with [] => true | _ => false end && stack_is_empty (archived s).

(** [AStack::active_len], src/archive_stack.rs:80. *)
Definition as_active_len s : nat := length (current s).

(** [AStack::name], src/archive_stack.rs:82. *)
Definition as_name s : option name := stack_name (archived s).

(** [AStack::push], src/archive_stack.rs:84. *)
Definition as_push s (e : E) : astack E M := AStack (current s ++ [e]) (archived s).

(** [Vec::pop]. *)
Definition vec_pop (v : list E) : option E * list E :=
  match rev v with
  | [] => (None, [])
  | e :: r => (Some e, rev r)
  end.

(** [slice::last]. *)
Definition vec_last (v : list E) : option E :=
  match rev v with [] => None | e :: _ => Some e end.

(** [AStack::retrieve], src/archive_stack.rs:170-177. *)
Definition as_retrieve s : res (option M * astack E M) :=
  match current s with
  | [] =>
      do ' (meta, v) <- unwrap "retrieve: peek" (stack_peek (archived s));
      do rest <- unwrap "retrieve: pull" (stack_pull (archived s));
      Ok (Some meta, AStack v rest)
  | _ => Ok (None, s)
  end.

(** [AStack::pop], src/archive_stack.rs:90-94. *)
Definition as_pop s : res (option E * astack E M) :=
  if as_is_empty s then Ok (None, s)
  else
    do ' (_, s1) <- as_retrieve s;
    let (e, v) := vec_pop (current s1) in
    Ok (e, AStack v (archived s1)).

(** [AStack::pop_meta], src/archive_stack.rs:99-103. *)
Definition as_pop_meta s : res (option (E * option M) * astack E M) :=
  if as_is_empty s then Ok (None, s)
  else
    do ' (meta, s1) <- as_retrieve s;
    let (e, v) := vec_pop (current s1) in
    Ok (option_map (fun e => (e, meta)) e, AStack v (archived s1)).

(** [AStack::extend], src/archive_stack.rs:107-109. *)
Definition as_extend s (extra : list E) : astack E M :=
  AStack (current s ++ extra) (archived s).

(** [AStack::extend_rev], src/archive_stack.rs:113-116. *)
Definition as_extend_rev s (extra : list E) : astack E M :=
  AStack (rev (current s ++ extra)) (archived s).

(** [AStack::next_archive], src/archive_stack.rs:120-132. *)
Definition as_next_archive s : res (option (list E * option M) * astack E M) :=
  if as_is_empty s then Ok (None, s)
  else if stack_is_empty (archived s) then
    Ok (Some (current s, None), AStack [] stack_new)
  else
    do ' (old_meta, vec) <- unwrap "missing data" (stack_peek (archived s));
    do rest <- unwrap "next_archive: pull" (stack_pull (archived s));
    Ok (Some (current s, Some old_meta), AStack vec rest).

(** [AStack::active_data], src/archive_stack.rs:135-137. *)
Definition as_active_data s : list E := current s.

(** [AStack::peek], src/archive_stack.rs:144-150. *)
Definition as_peek s : res (option E) :=
  if as_is_empty s then Ok None
  else match current s with
  | [] =>
      do ' (_, v) <- unwrap "peek: archived" (stack_peek (archived s));
      do e <- unwrap "peek: last" (vec_last v);
      Ok (Some e)
  | _ =>
      do e <- unwrap "peek: last" (vec_last (current s));
      Ok (Some e)
  end.

(** [AStack::archive_with_capacity], src/archive_stack.rs:161-166; the capacity
    argument is not observable and dropped. *)
Definition as_archive_with_capacity s (nm : option name) (meta : M) (capacity : N) : bool * astack E M :=
  match current s with
  | [] => (false, s)
  | _ => (true, AStack [] (stack_push (archived s) nm (meta, current s)))
  end.

(** [AStack::archive], src/archive_stack.rs:156-158. *)
Definition as_archive s (nm : option name) (meta : M) : bool * astack E M :=
  as_archive_with_capacity s nm meta 0.

(** [Iter::next], src/archive_stack.rs:194-196; [into_iter] (:184-186) only wraps. *)
Definition as_iter_next s : res (option E * astack E M) := as_pop s.

End Ops.

(** [From<Vec<E>>], src/archive_stack.rs:200-208. *)
Definition as_from_vec {E} (v : list E) : astack E unit := AStack v stack_new.
