(** * Proofs about the trie model. *)

From Verif Require Import Base SkiplistModel TrieModel.

Section TrieProofs.
Context {K V : Type} (keqb : K -> K -> bool) (my_hash : K -> N) (digest : list (K * V) -> N).

(** Every trie a user of the public functions can hold. *)
Inductive trie_made : trie K V -> Prop :=
| TM_empty : trie_made t_empty
| TM_from m : NoDup (map fst m) -> trie_made (from_hashmap digest m)
| TM_union s t n u : trie_made s -> trie_made t -> union keqb my_hash digest s t n = Ok u -> trie_made u.

Lemma union_empty_left t n : union keqb my_hash digest t_empty t n = Ok t.
Proof. reflexivity. Qed.

Lemma union_empty_right t n : union keqb my_hash digest t t_empty n = Ok t.
Proof. destruct t; reflexivity. Qed.

Lemma union_leaves h h' m m' n : union keqb my_hash digest (TLeaf h m) (TLeaf h' m') n = Panic "assert len > 0".
Proof. reflexivity. Qed.

Lemma trie_made_shape t : trie_made t -> t = t_empty \/ exists m, NoDup (map fst m) /\ t = from_hashmap digest m.
Proof.
  induction 1 as [|m D|s t n u Hs IHs Ht IHt U]; [now left|right; eauto|].
  destruct IHs as [->|(m & D & ->)].
  - rewrite union_empty_left in U. injection U as <-. exact IHt.
  - destruct IHt as [->|(m' & D' & ->)].
    + rewrite union_empty_right in U. injection U as <-. eauto.
    + unfold from_hashmap, leaf_of in U. rewrite union_leaves in U. discriminate.
Qed.

End TrieProofs.

Lemma m_get_in {K V} (keqb : K -> K -> bool) (m : list (K * V)) k v :
  (forall a b, keqb a b = true <-> a = b) -> NoDup (map fst m) -> (m_get keqb m k = Some v <-> In (k, v) m).
Proof.
  intros S. induction m as [|[k0 v0] m IH]; cbn; intros D; [split; [discriminate|tauto]|].
  inversion D as [|? ? N D']; subst. destruct (keqb k k0) eqn:E.
  - apply S in E. subst k0. split.
    + injection 1 as ->. now left.
    + intros [H|H]; [congruence|]. exfalso. apply N. apply (in_map fst) in H. exact H.
  - rewrite IH by exact D'. split; [auto|]. intros [H|H]; [|exact H]. injection H as -> ->.
    rewrite (proj2 (S k k) eq_refl) in E. discriminate.
Qed.

Lemma find_from {K V} (keqb : K -> K -> bool) digest (m : list (K * V)) k v h :
  (forall a b, keqb a b = true <-> a = b) -> NoDup (map fst m) ->
  (t_find keqb (from_hashmap digest m) h k = Some v <-> In (k, v) m).
Proof. intros S D. cbn. now apply m_get_in. Qed.

Lemma eqb_digest {K V} keqb (digest : list (K * V) -> N) m m' h k :
  digest m = digest m' -> t_find keqb (from_hashmap digest m) h k <> t_find keqb (from_hashmap digest m') h k ->
  t_eqb (from_hashmap digest m) (from_hashmap digest m') = true /\ from_hashmap digest m <> from_hashmap digest m'.
Proof. intros E H. split; [apply N.eqb_eq, E|]. intros X. apply H. now rewrite X. Qed.
