(** * Model of src/raz_meta.rs. *)

From Verif Require Import Base.

(** [Navigation], src/raz_meta.rs:51-53. *)
Inductive navigation (I : Type) : Type :=
| NavLeft (i : I)
| NavRight (i : I)
| NavHere
| NavNowhere.
Arguments NavLeft {I} i.
Arguments NavRight {I} i.
Arguments NavHere {I}.
Arguments NavNowhere {I}.

(** [RazMeta] with its [Index: FirstLast], src/raz_meta.rs:17-48 and 56-59. A
    trait becomes a class (record). [navigate] and [split_vec] may panic. *)
Class RazMeta (E M : Type) : Type := {
  Index : Type;
  idx_first : Index;
  idx_last : Index;
  from_none : level -> option name -> M;
  from_vec : list E -> level -> option name -> M;
  from_meta : M -> M -> level -> option name -> M;
  navigate : M -> M -> Index -> res (navigation Index);
  split_vec : list E -> Index -> res (list E * list E)
}.

(** [slice::split_at]: panics if [mid > len]. *)
Definition split_at {E} (v : list E) (mid : N) : res (list E * list E) :=
  if (N.of_nat (length v) <? mid)%N then Panic "split_at: mid > len"
  else Ok (firstn (N.to_nat mid) v, skipn (N.to_nat mid) v).

(** [vec.len()] as a [usize]. *)
Definition vec_len {E} (v : list E) : N := N.of_nat (length v).

(** [Position], src/raz_meta.rs:68-79. [From<I>] is [PCenter]. *)
Inductive position (I : Type) : Type :=
| PLeft
| PRight
| PCenter (i : I).
Arguments PLeft {I}.
Arguments PRight {I}.
Arguments PCenter {I} i.

(** [impl RazMeta<E> for ()], src/raz_meta.rs:81-101. *)
Definition unit_navigate (i : position unit) : res (navigation (position unit)) :=
  match i with
  | PLeft => Ok (NavLeft PLeft)
  | PRight => Ok (NavRight PRight)
  | PCenter _ => Panic "Invalid position"
  end.

#[export] Instance unit_meta (E : Type) : RazMeta E unit := {
  Index := position unit;
  idx_first := PLeft;
  idx_last := PRight;
  from_none _ _ := tt;
  from_vec _ _ _ := tt;
  from_meta _ _ _ _ := tt;
  navigate _ _ i := unit_navigate i;
  split_vec v i :=
    match i with
    | PLeft => split_at v 0
    | PRight => split_at v (vec_len v)
    | PCenter _ => Panic "Invalid position"
    end
}.

(** [Count], src/raz_meta.rs:108-147. *)
Inductive count : Type := Count (n : N).
Definition count_n (c : count) : N := match c with Count n => n end.

(** [l + r] on [usize], release-build arithmetic (wraps). *)
Definition usize_add (a b : N) : N := ((a + b) mod usize_mod)%N.

(** [Count::navigate], src/raz_meta.rs:121-132. *)
Definition count_navigate (l r : count) (i : N) : navigation N :=
  if (i =? usize_max)%N then NavRight i
  else if (usize_add (count_n l) (count_n r) <? i)%N then NavNowhere
  else if (count_n l <? i)%N then NavRight (i - count_n l)%N
  else if (i =? count_n l)%N then NavHere
  else NavLeft i.

#[export] Instance count_meta (E : Type) : RazMeta E count := {
  Index := N;
  idx_first := 0%N;
  idx_last := usize_max;
  from_none _ _ := Count 0;
  from_vec v _ _ := Count (vec_len v);
  from_meta l r _ _ := Count (usize_add (count_n l) (count_n r));
  navigate l r i := Ok (count_navigate l r i);
  split_vec v i :=
    if (i =? usize_max)%N then split_at v (vec_len v) else split_at v i
}.

(** [Names], src/raz_meta.rs:154-204: [HashMap<Name,()>] as a duplicate-free list
    of keys. *)
Inductive names : Type := Names (ks : list name).
Definition names_keys (s : names) : list name := match s with Names ks => ks end.

(** [HashMap::contains_key] / [HashMap::insert] with unit values. *)
Definition contains_key (s : list name) (k : name) : bool := existsb (name_eqb k) s.
Definition key_insert (k : name) (s : list name) : list name :=
  if contains_key s k then s else k :: s.
Definition oinsert (n : option name) (s : list name) : list name :=
  match n with None => s | Some nm => key_insert nm s end.

(** [Names::navigate], src/raz_meta.rs:181-194. *)
Definition names_navigate (l r : names) (i : position name) : navigation (position name) :=
  match i with
  | PLeft => NavLeft PLeft
  | PRight => NavRight PRight
  | PCenter nm =>
      match contains_key (names_keys l) nm, contains_key (names_keys r) nm with
      | true, true => NavHere
      | true, false => NavLeft i
      | false, true => NavRight i
      | false, false => NavNowhere
      end
  end.

#[export] Instance names_meta (E : Type) : RazMeta E names := {
  Index := position name;
  idx_first := PLeft;
  idx_last := PRight;
  from_none _ n := Names (oinsert n []);
  from_vec _ _ n := Names (oinsert n []);
  from_meta l r _ n :=
    let h := fold_left (fun h k => key_insert k h) (names_keys l) [] in
    let h := fold_left (fun h k => key_insert k h) (names_keys r) h in
    Names (oinsert n h);
  navigate l r i := Ok (names_navigate l r i);
  split_vec v i :=
    match i with
    | PLeft => split_at v 0
    | PRight => split_at v (vec_len v)
    | PCenter _ => Panic "There are no names in this region"
    end
}.
