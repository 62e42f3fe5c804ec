(** * Model of src/stack.rs (persistent cons list).

    [Art] is modelled by its content: [cell(n,b)] and [put(b)] are [b], [force]
    is the identity (DESIGN.md, section 2; the store model treats mutation). *)

From Verif Require Import Base.

(** [Head] and [Body], src/stack.rs:27-36. *)
Inductive head (T : Type) : Type :=
| Head (nm : option name) (elem : T) (next : option (head T)).
Arguments Head {T} nm elem next.

(** [Stack(pub Option<Head<T>>)], src/stack.rs:23-24. *)
Definition stack (T : Type) := option (head T).

(** [push_onto], src/stack.rs:114-133. Both branches store the same body; the
    only difference is the kind of [Art], which the pure model does not see. *)
Definition push_onto {T} (tail : option (head T)) (nm : option name) (e : T) : head T :=
  match nm with
  | None => Head None e tail
  | Some n => Head (Some n) e tail
  end.

(** [Head::new], src/stack.rs:83-85. *)
Definition head_new {T} (nm : option name) (e : T) : head T := push_onto None nm e.

(** [Head::push], src/stack.rs:88-90. *)
Definition head_push {T} (h : head T) (nm : option name) (e : T) : head T :=
  push_onto (Some h) nm e.

(** [Head::peek], src/stack.rs:93-95. *)
Definition head_peek {T} (h : head T) : T := match h with Head _ e _ => e end.

(** [Head::name], src/stack.rs:98-100. *)
Definition head_name {T} (h : head T) : option name := match h with Head n _ _ => n end.

(** [Head::pull], src/stack.rs:103-105. *)
Definition head_pull {T} (h : head T) : option (head T) := match h with Head _ _ t => t end.

(** [Stack::new], src/stack.rs:42-44. *)
Definition stack_new {T} : stack T := None.

(** [Stack::is_empty], src/stack.rs:46-48. *)
Definition stack_is_empty {T} (s : stack T) : bool :=
  match s with None => true | Some _ => false end.

(** [Stack::push], src/stack.rs:51-53. *)
Definition stack_push {T} (s : stack T) (nm : option name) (e : T) : stack T :=
  Some (push_onto s nm e).

(** [Stack::peek], src/stack.rs:56-58. *)
Definition stack_peek {T} (s : stack T) : option T := option_map head_peek s.

(** [Stack::name], src/stack.rs:61-66. *)
Definition stack_name {T} (s : stack T) : option name :=
  match s with None => None | Some h => head_name h end.

(** [Stack::pull], src/stack.rs:69-71. *)
Definition stack_pull {T} (s : stack T) : option (stack T) :=
  match s with None => None | Some h => Some (head_pull h) end.

(** [Iter], src/stack.rs:136-138; [Stack::iter], :74-76; [Head::iter], :108-110. *)
Definition iter (T : Type) := option (head T).
Definition stack_iter {T} (s : stack T) : iter T := s.
Definition head_iter {T} (h : head T) : iter T := Some h.

(** [Iter::name], src/stack.rs:143-148. *)
Definition iter_name {T} (i : iter T) : option name :=
  match i with None => None | Some h => head_name h end.

(** [Iter::next], src/stack.rs:155-161. *)
Definition iter_next {T} (i : iter T) : option T * iter T :=
  match i with
  | None => (None, None)
  | Some (Head _ e n) => (Some e, n)
  end.
