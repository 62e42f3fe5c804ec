(** * Model of src/trie.rs.

    [HashMap] is an association list with pairwise different keys; the order of
    the list stands for the (unspecified) iteration order. [Art] is its content,
    [get!] a projection. [my_hash] (lines 15-21) and the hasher run over a whole
    map (lines 104-111) are arbitrary functions. *)

From Verif Require Import Base SkiplistModel.

(** Bits, src/trie.rs:44-45. *)
Record bits : Type := Bits { b_bits : N; b_len : N }.

Section Trie.
Context {K V : Type} (keqb : K -> K -> bool) (my_hash : K -> N) (digest : list (K * V) -> N).

(** Trie, TrieLeaf, TrieBin, src/trie.rs:47-69. *)
Inductive trie : Type :=
| TEmpty
| TLeaf (hash : N) (m : list (K * V))
| TBin (b : bits) (n : name) (l r : trie).

(** HashMap::get. *)
Fixpoint m_get (m : list (K * V)) (k : K) : option V :=
  match m with
  | [] => None
  | (k0, v) :: m' => if keqb k k0 then Some v else m_get m' k
  end.

(** HashMap::insert; an existing key keeps its place. *)
Fixpoint m_insert (k : K) (v : V) (m : list (K * V)) : list (K * V) :=
  match m with
  | [] => [(k, v)]
  | (k0, v0) :: m' => if keqb k k0 then (k0, v) :: m' else (k0, v0) :: m_insert k v m'
  end.

(** find, src/trie.rs:90-102. *)
Fixpoint t_find (t : trie) (h : N) (k : K) : option V :=
  match t with
  | TEmpty => None
  | TLeaf _ m => m_get m k
  | TBin _ _ l r =>
      if (N.land h 1 =? 0)%N then t_find l (N.shiftr h 1) k else t_find r (N.shiftr h 1) k
  end.

(** The leaf built from a map, with hash_map (src/trie.rs:104-111). *)
Definition leaf_of (m : list (K * V)) : trie := TLeaf (digest m) m.

(** The loop of split_map, src/trie.rs:119-127. [1 << (bits.len + 1)] has type u64
    and panics in a debug build for 64 and more. *)
Fixpoint split_loop (m : list (K * V)) (mask : N) (b : bits) (m0 m1 : list (K * V))
  : res (list (K * V) * list (K * V)) :=
  match m with
  | [] => Ok (m0, m1)
  | (k, v) :: m' =>
      do _ <- assert "assert mask & k_hash == bits" (N.land mask (my_hash k) =? b_bits b)%N;
      do _ <- assert "attempt to shift left with overflow" (b_len b + 1 <? 64)%N;
      if (N.land (my_hash k) (N.shiftl 1 (b_len b + 1)) =? 0)%N
      then split_loop m' mask b (m_insert k v m0) m1
      else split_loop m' mask b m0 (m_insert k v m1)
  end.

(** split_map, src/trie.rs:113-129; make_mask (34-42) is the same function as in
    src/skiplist.rs. *)
Definition split_map (m : list (K * V)) (b : bits) (m0 m1 : list (K * V))
  : res (list (K * V) * list (K * V)) :=
  do mask <- make_mask (N.to_nat (b_len b));
  split_loop m mask b m0 m1.

(** empty, src/trie.rs:131-133. *)
Definition t_empty : trie := TEmpty.

(** from_hashmap, src/trie.rs:135-137. *)
Definition from_hashmap (m : list (K * V)) : trie := leaf_of m.

Definition bits_eqb (a b : bits) : bool := (b_bits a =? b_bits b)%N && (b_len a =? b_len b)%N.

(** union_rec, src/trie.rs:151-199. The recursive calls are on the two children of
    the left trie, then on the two children of the right one (sic); [fuel] bounds
    the recursion depth. *)
Fixpoint union_rec (fuel : nat) (lt rt : trie) (b : bits) (n : name) : res trie :=
  match fuel with
  | O => Fuel
  | S fuel' =>
      match lt, rt with
      | TEmpty, rt => Ok rt
      | lt, TEmpty => Ok lt
      | TLeaf _ lm, TLeaf _ rm =>
          do ' (l0, l1) <- split_map lm b [] [];
          do ' (r0, r1) <- split_map rm b l0 l1;
          Ok (TBin b n (leaf_of r0) (leaf_of r1))
      | TLeaf _ _, TBin _ _ _ _ => Panic "TODO"
      | TBin _ _ _ _, TLeaf _ rm =>
          do _ <- split_map rm b [] [];
          Panic ""
      | TBin lb ln ll lr, TBin rb rn rl rr =>
          do _ <- assert "assert l.bits == bits" (bits_eqb lb b);
          do _ <- assert "assert l.bits == r.bits" (bits_eqb lb rb);
          do _ <- assert "attempt to add with overflow" (b_len b <? u32_max)%N;
          do _ <- assert "attempt to shift left with overflow" (b_len b <? 32)%N;
          let lbits := Bits (b_bits b) (b_len b + 1) in
          let rbits := Bits (N.land (N.shiftl 1 (b_len b)) (b_bits b)) (b_len b + 1) in
          do l <- union_rec fuel' ll lr lbits ln;
          do r <- union_rec fuel' rl rr rbits rn;
          Ok (TBin b n l r)
      end
  end.

(** Depth of a trie, used as the recursion bound. *)
Fixpoint t_depth (t : trie) : nat :=
  match t with
  | TBin _ _ l r => S (Nat.max (t_depth l) (t_depth r))
  | _ => 0
  end.

(** union, src/trie.rs:139-141. *)
Definition union (lt rt : trie) (n : name) : res trie :=
  union_rec (S (Nat.max (t_depth lt) (t_depth rt))) lt rt (Bits 0 0) n.

(** PartialEq for Trie: derived (src/trie.rs:47), except that leaves compare only
    their hashes (78-85). Children are compared through [Art]; equal contents. *)
Fixpoint t_eqb (s t : trie) : bool :=
  match s, t with
  | TEmpty, TEmpty => true
  | TLeaf h _, TLeaf h' _ => (h =? h')%N
  | TBin b n l r, TBin b' n' l' r' => bits_eqb b b' && name_eqb n n' && t_eqb l l' && t_eqb r r'
  | _, _ => false
  end.

End Trie.
Arguments trie : clear implicits.
