(** * Model of [Level] in src/trees.rs and of the element types in eval/src/types.rs.

    Numbers are [N] in the range of their type. [debug] is the build: overflow panics
    in debug builds and wraps in release builds. *)

From Verif Require Import Base.

(** [a + b] and [a - b] on an unsigned type with greatest value [top]. *)
Definition ovf_add (debug : bool) (top a b : N) : res N :=
  if (top <? a + b)%N then
    if debug then Panic "attempt to add with overflow" else Ok ((a + b) mod (top + 1))%N
  else Ok (a + b)%N.
Definition ovf_sub (debug : bool) (top a b : N) : res N :=
  if (a <? b)%N then
    if debug then Panic "attempt to subtract with overflow" else Ok ((a + (top + 1) - b) mod (top + 1))%N
  else Ok (a - b)%N.

(** [Level], src/trees.rs:53-62, with its instances for [NegBin], src/trees.rs:82-87
    ([top] = 255), and [usize], src/trees.rs:91-96 ([top] = 2^64 - 1). *)
Definition l_max (top : N) : N := top.
Definition l_min (top : N) : N := 0%N.
Definition l_inc (debug : bool) (top l : N) : res N := ovf_add debug top l 1%N.
Definition l_dec (debug : bool) (top l : N) : res N := ovf_sub debug top l 1%N.
Definition negbin_top : N := 255%N.

(** [GenSmall::rand], [Gen10k::rand], eval/src/types.rs:7-11, 26-30: the generator draws a
    64-bit word, given here. *)
Definition gen_small (word : N) : N := (word mod 100)%N.
Definition gen_10k (word : N) : N := (word mod 10000)%N.
(** [Add], eval/src/types.rs:12-17, 31-36. *)
Definition gen_add (debug : bool) (a b : N) : res N := ovf_add debug usize_max a b.

(** [Elm::hash], eval/src/types.rs:43-50: the words handed to the hasher. *)
Definition hash_loop_count : nat := 100.
Definition elm_hash (e : N) (state : list N) : list N :=
  fold_left (fun st _ => st ++ [e]) (seq 0 hash_loop_count) state.
