(** * Property C89: the inner nodes of tries. *)

From Verif Require Import Base SkiplistModel TrieModel TrieSpec TrieBins.

(** [find] goes by the bits of the hash from the lowest up and looks the key up in the
    map it arrives at. *)
Theorem C89_find : forall (K V : Type) (keqb : K -> K -> bool) (t : trie K V) h k v,
  (forall a b, keqb a b = true <-> a = b) -> maps_ok t ->
  (t_find keqb t h k = Some v <-> In (k, v) (map_at t h 0)).
Proof. intros K V keqb t h k v E. exact (find_path keqb E t h k v). Qed.
Print Assumptions C89_find.

(** [split_map] of keys that agree with the given bits adds each to the first or second
    map by bit [len + 1] of its hash. *)
Theorem C89_split : forall (K V : Type) (keqb : K -> K -> bool) my_hash (m m0 m1 : list (K * V)) b,
  (forall a b, keqb a b = true <-> a = b) ->
  (0 < b_len b)%N -> (b_len b + 1 < 64)%N -> NoDup (map fst m) ->
  (forall k, In k (map fst m) -> my_hash k mod 2 ^ b_len b = b_bits b)%N ->
  exists r0 r1, split_map keqb my_hash m b m0 m1 = Ok (r0, r1) /\
    (forall k, m_get keqb r0 k = match m_get keqb m k with
       | Some v => if N.testbit (my_hash k) (b_len b + 1) then m_get keqb m0 k else Some v
       | None => m_get keqb m0 k end) /\
    (forall k, m_get keqb r1 k = match m_get keqb m k with
       | Some v => if N.testbit (my_hash k) (b_len b + 1) then Some v else m_get keqb m1 k
       | None => m_get keqb m1 k end).
Proof. intros K V keqb my_hash m m0 m1 b E. exact (split_ok keqb E my_hash m m0 m1 b). Qed.
Print Assumptions C89_split.

(** Two branches with maps placed where [find] looks for them cannot be united: the
    union pairs the two children of one branch instead of the left children and the
    right children. *)
Theorem C89_union_branches_panics : forall (K V : Type) (keqb : K -> K -> bool) my_hash digest d1 d2 n1
    (ml mr : list (K * V)) rb n2 rl rr n,
  (forall a b, keqb a b = true <-> a = b) ->
  NoDup (map fst ml) -> (forall k, In k (map fst ml) -> N.testbit (my_hash k) 0 = false) ->
  (exists k, In k (map fst mr) /\ N.testbit (my_hash k) 0 = true) -> bits_eqb (Bits 0 0) rb = true ->
  union keqb my_hash digest (TBin (Bits 0 0) n1 (TLeaf d1 ml) (TLeaf d2 mr)) (TBin rb n2 rl rr) n =
    Panic "assert mask & k_hash == bits".
Proof.
  intros K V keqb my_hash digest d1 d2 n1 ml mr rb n2 rl rr n E.
  exact (union_bins keqb E my_hash digest d1 d2 n1 ml mr rb n2 rl rr n).
Qed.
Print Assumptions C89_union_branches_panics.

(** Where the union of two maps succeeds, one bit down, it splits by another bit than
    the one [find] goes by: a key of the maps is not found. *)
Theorem C89_union_finds_refuted : exists (my_hash : N -> N) (m m' : list (N * N)) t k v,
  union_rec N.eqb my_hash (fun _ => 0%N) 1 (TLeaf 0 m) (TLeaf 0 m') (Bits 0 1) NUnit = Ok t /\
  NoDup (map fst m) /\ In (k, v) m /\
  t_find N.eqb (TBin (Bits 0 0) NUnit t TEmpty) (my_hash k) k = None.
Proof.
  exists (fun k => k), [(4, 1)]%N, [(2, 2)]%N, (TBin (Bits 0 1) NUnit (TLeaf 0 [(2, 2)]) (TLeaf 0 [(4, 1)]))%N, 4%N, 1%N.
  split; [vm_compute; reflexivity|]. split; [repeat constructor; easy|]. split; [now left|vm_compute; reflexivity].
Qed.
Print Assumptions C89_union_finds_refuted.

(** Where it does not panic, for branches with at most one child each, the child of the
    first branch becomes the left one and the child of the second the right one, wherever
    they were: a key on the right of the first branch is no longer found. *)
Theorem C89_union_pairs : forall (K V : Type) (keqb : K -> K -> bool) my_hash digest n n1 n2 (t u : trie K V),
  let bin m l r := TBin (Bits 0 0) m l r in
  union keqb my_hash digest (bin n1 t TEmpty) (bin n2 TEmpty u) n = Ok (bin n t u) /\
  union keqb my_hash digest (bin n1 TEmpty t) (bin n2 u TEmpty) n = Ok (bin n t u) /\
  union keqb my_hash digest (bin n1 TEmpty t) (bin n2 TEmpty u) n = Ok (bin n t u) /\
  union keqb my_hash digest (bin n1 t TEmpty) (bin n2 u TEmpty) n = Ok (bin n t u).
Proof. intros K V. exact union_pairs_all. Qed.
Print Assumptions C89_union_pairs.

Example C89_pairs_case : (
  let t := TBin (Bits 0 0) NUnit TEmpty (TLeaf 0 [(5, 2)]) in
  t_find N.eqb t 5 5 = Some 2 /\
  exists u, union N.eqb (fun k => k) (fun _ => 0) t (TBin (Bits 0 0) NUnit (TLeaf 0 [(4, 1)]) TEmpty) NUnit = Ok u /\
    t_find N.eqb u 5 5 = None /\ t_find N.eqb u 4 4 = None)%N.
Proof. split; [reflexivity|]. eexists. split; [vm_compute; reflexivity|]. split; reflexivity. Qed.

Example C89_case : (
  let t := TBin (Bits 0 0) NUnit (TLeaf 0 [(4, 1); (6, 3)]) (TBin (Bits 1 1) NUnit (TLeaf 0 [(5, 2)]) (TLeaf 0 [(7, 9)])) in
  maps_ok t /\ t_find N.eqb t 7 7 = Some 9 /\ t_find N.eqb t 5 5 = Some 2 /\ t_find N.eqb t 6 6 = Some 3 /\
  t_find N.eqb t 5 7 = None /\
  split_map N.eqb (fun k => k) [(4, 1); (6, 3); (2, 8)] (Bits 0 1) [(9, 9)] [] = Ok ([(9, 9); (2, 8)], [(4, 1); (6, 3)]) /\
  union N.eqb (fun k => k) (fun _ => 0) (TBin (Bits 0 0) NUnit (TLeaf 0 [(4, 1)]) (TLeaf 0 [(5, 2)]))
    (TBin (Bits 0 0) NUnit TEmpty TEmpty) NUnit = Panic "assert mask & k_hash == bits")%N.
Proof.
  split; [|repeat split; vm_compute; reflexivity].
  repeat split; repeat constructor; cbn; intuition discriminate.
Qed.
