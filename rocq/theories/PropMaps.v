(** * Properties of the skiplist and the trie (C42..C45). *)

From Verif Require Import Base SkiplistModel MapScripts SkiplistProofs TrieModel TrieProofs.

(** C42. Any sequence of operations returns what the list of bindings made so far
    says. [debug] builds need a length below 64, release builds only a positive one. *)
Theorem C42_skiplist_is_a_map : forall (K V : Type) (keqb : K -> K -> bool) (my_hash : K -> N) (debug : bool),
  (forall a b, keqb a b = true <-> a = b) ->
  forall len, 0 < len -> (debug = true -> len < 64) ->
  forall n (ops : list (map_op K V)),
  sk_run keqb my_hash debug (sk_emp len n) ops = Ok (map_spec_run keqb [] ops).
Proof. intros K V keqb my_hash debug S len. exact (skiplist_is_map keqb my_hash debug S len). Qed.
Print Assumptions C42_skiplist_is_a_map.

(** Two keys with the same hash (7 and 1007), one differing only beyond the
    examined bits (15), one at the first bit. *)
Example C42_case : forall n,
  sk_run Nat.eqb (fun k => N.of_nat (k mod 1000)) true (sk_emp 3 n)
    [MPut 7 10; MPut 1007 20; MExt 15 (Some 30); MPut 2 40; MArchive NUnit; MGet 7; MRem 1007; MGet 1007;
     MGet 15; MExt 7 (Some 11); MGet 7; MGet 2; MGet 3]
  = Ok [None; None; Some None; None; None; Some (Some 10); Some (Some 20); Some None;
        Some (Some 30); Some (Some 10); Some (Some 11); Some (Some 40); Some None].
Proof. reflexivity. Qed.

(** C43. The edges of the path length. *)
Theorem C43_length_zero_panics : forall (K V : Type) keqb my_hash debug (s : skiplist K V) k o,
  path_len s = 0 ->
  sk_ext keqb my_hash debug s k o = Panic "assert len > 0" /\
  sk_get keqb my_hash debug s k = Panic "assert len > 0".
Proof. intros K V. exact skiplist_length_zero. Qed.
Print Assumptions C43_length_zero_panics.

Theorem C43_length_64_debug_panics_refuted : exists ops : list (map_op N nat),
  sk_run N.eqb (fun k => k) true (sk_emp 64 NUnit) ops = Panic "attempt to shift right with overflow" /\
  sk_run N.eqb (fun k => k) false (sk_emp 64 NUnit) ops = Ok [None; None; Some (Some 1)].
Proof. exists [MPut 0%N 1; MPut (2 ^ 63)%N 2; MGet 0%N]. split; vm_compute; reflexivity. Qed.
Print Assumptions C43_length_64_debug_panics_refuted.

(** C44. Lookups in, and unions with empty, tries. *)
Theorem C44_find : forall (K V : Type) (keqb : K -> K -> bool) digest (m : list (K * V)) k v h,
  (forall a b, keqb a b = true <-> a = b) -> NoDup (map fst m) ->
  (t_find keqb (from_hashmap digest m) h k = Some v <-> In (k, v) m).
Proof. intros K V. exact find_from. Qed.
Print Assumptions C44_find.

Theorem C44_union_empty : forall (K V : Type) keqb my_hash digest (t : trie K V) n,
  union keqb my_hash digest t_empty t n = Ok t /\ union keqb my_hash digest t t_empty n = Ok t.
Proof.
  intros K V keqb my_hash digest t n.
  exact (conj (union_empty_left keqb my_hash digest t n) (union_empty_right keqb my_hash digest t n)).
Qed.
Print Assumptions C44_union_empty.

Example C44_case : forall h, t_find Nat.eqb (from_hashmap (fun _ => 0%N) [(1, "a"); (2, "b")]) h 2 = Some "b".
Proof. reflexivity. Qed.

(** C45. The union of two tries made from maps panics, even for empty maps; so no
    user ever holds anything but an empty trie or a single map. *)
Theorem C45_union_panics : forall (K V : Type) keqb my_hash digest (m m' : list (K * V)) n,
  union keqb my_hash digest (from_hashmap digest m) (from_hashmap digest m') n = Panic "assert len > 0".
Proof. intros K V keqb my_hash digest m m' n. exact (union_leaves keqb my_hash digest _ _ m m' n). Qed.
Print Assumptions C45_union_panics.

Theorem C45_made_tries : forall (K V : Type) keqb my_hash digest (t : trie K V),
  trie_made keqb my_hash digest t ->
  t = t_empty \/ exists m, NoDup (map fst m) /\ t = from_hashmap digest m.
Proof. intros K V. exact trie_made_shape. Qed.
Print Assumptions C45_made_tries.

(** Two tries the derived equality calls equal, though lookups differ: possible as
    soon as two maps have the same digest. *)
Theorem C45_equality_ignores_contents : forall (K V : Type) keqb (digest : list (K * V) -> N) m m' h k,
  digest m = digest m' -> t_find keqb (from_hashmap digest m) h k <> t_find keqb (from_hashmap digest m') h k ->
  t_eqb (from_hashmap digest m) (from_hashmap digest m') = true /\ from_hashmap digest m <> from_hashmap digest m'.
Proof. intros K V. exact eqb_digest. Qed.
Print Assumptions C45_equality_ignores_contents.

Example C45_case : trie_made Nat.eqb (fun k => N.of_nat k) (fun _ => 0%N) (from_hashmap (fun _ => 0%N) [(1, 2); (3, 4)]) /\
  t_find Nat.eqb (from_hashmap (fun m => N.of_nat (length m)) [(1, 2)]) 0 1 <>
  t_find Nat.eqb (from_hashmap (fun m => N.of_nat (length m)) [(3, 4)]) 0 1.
Proof. split; [apply TM_from; cbn; repeat constructor; cbn; intuition discriminate|discriminate]. Qed.
