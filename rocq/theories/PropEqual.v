(** * Properties of equality and hashing (C96). *)

From Coq Require Import Permutation.
From Verif Require Import Base RazMetaModel TrieModel EqualModel EqualSpec EqualProofs.

(** C96. Equality of tries is an equivalence, equal tries hash alike; what it compares are
    branches, names and the hashes of leaves. *)
Theorem C96_trie_equivalence : forall K V : Type, equivalence (@t_eqb K V).
Proof. intros K V. exact alike_equivalence. Qed.
Print Assumptions C96_trie_equivalence.

Theorem C96_trie_hash : forall (K V : Type) (name_words : name -> list N), hash_lawful (@t_eqb K V) (t_words name_words).
Proof. intros K V. exact alike_hash. Qed.
Print Assumptions C96_trie_hash.

Theorem C96_trie_compares : forall (K V : Type) (s t : trie K V), t_eqb s t = true <-> alike s t.
Proof. intros K V. exact eqb_alike. Qed.
Print Assumptions C96_trie_compares.

(** That tries made from one map are equal is refuted for every digest that depends on the
    order in which the map is iterated over, although all lookups agree. *)
Theorem C96_same_map_equal_refuted : forall (K V : Type) (keqb : K -> K -> bool) (digest : list (K * V) -> N) m m',
  (forall a b, keqb a b = true <-> a = b) -> NoDup (map fst m) -> Permutation m m' -> digest m <> digest m' ->
  (forall h k, t_find keqb (from_hashmap digest m) h k = t_find keqb (from_hashmap digest m') h k) /\
  t_eqb (from_hashmap digest m) (from_hashmap digest m') = false.
Proof.
  intros K V keqb digest m m' S N P D. split.
  - intros h k. exact (same_lookups keqb S m m' k N P).
  - apply not_true_iff_false. intros H. apply D. now apply order_matters.
Qed.
Print Assumptions C96_same_map_equal_refuted.

(** Equality of [Names] is an equivalence on maps; it holds between those with the same
    keys, and equal ones navigate alike and combine to equal ones, so the order in which
    the code iterates over them does not matter. All hash alike. *)
Theorem C96_names_equivalence : (forall a, NoDup (names_keys a) -> names_eqb a a = true) /\
  (forall a b, NoDup (names_keys a) -> NoDup (names_keys b) -> names_eqb a b = true -> names_eqb b a = true) /\
  (forall a b c, NoDup (names_keys a) -> NoDup (names_keys b) -> NoDup (names_keys c) ->
    names_eqb a b = true -> names_eqb b c = true -> names_eqb a c = true) /\
  hash_lawful names_eqb names_words.
Proof. destruct names_equivalence as (A & B & C). repeat (split; [assumption|]). intros a b _. reflexivity. Qed.
Print Assumptions C96_names_equivalence.

Theorem C96_names_sets : forall a b, NoDup (names_keys a) -> NoDup (names_keys b) ->
  names_eqb a b = true <-> forall k, In k (names_keys a) <-> In k (names_keys b).
Proof. exact names_eqb_set. Qed.
Print Assumptions C96_names_sets.

Theorem C96_names_order : forall (E : Type) l l' r r',
  NoDup (names_keys l) -> NoDup (names_keys l') -> NoDup (names_keys r) -> NoDup (names_keys r') ->
  names_eqb l l' = true -> names_eqb r r' = true ->
  (forall i, navigate (E := E) l r i = navigate (E := E) l' r' i) /\
  (forall lv n, names_eqb (from_meta (E := E) l r lv n) (from_meta (E := E) l' r' lv n) = true /\
     NoDup (names_keys (from_meta (E := E) l r lv n))).
Proof.
  intros E l l' r r' A B C D Hl Hr. destruct (names_congruent (E := E) l l' r r' A B C D Hl Hr) as [X Y]. split.
  - intros i. cbn [navigate names_meta]. now rewrite X.
  - intros lv n. split; [apply Y|apply names_made].
Qed.
Print Assumptions C96_names_order.

(** ** Examples *)
Definition poly (m : list (nat * nat)) : N := fold_left (fun h p => 31 * (31 * h + N.of_nat (fst p)) + N.of_nat (snd p))%N m 7%N.
Definition two_leaves (h : N) : trie nat nat := TBin (Bits 0 1) (NStr "n") (TLeaf 3 [(1, 2)]) (TLeaf h [(5, 6)]).
Example C96_case_trie : t_eqb (two_leaves 4) (two_leaves 4) = true /\ t_eqb (two_leaves 4) (two_leaves 5) = false /\
  t_eqb (two_leaves 4) (TBin (Bits 0 1) (NStr "n") (TLeaf 3 []) (TLeaf 4 [])) = true /\
  t_eqb (two_leaves 4) (TBin (Bits 0 1) (NStr "m") (TLeaf 3 [(1, 2)]) (TLeaf 4 [(5, 6)])) = false /\
  t_eqb (two_leaves 4) (TBin (Bits 1 1) (NStr "n") (TLeaf 3 [(1, 2)]) (TLeaf 4 [(5, 6)])) = false /\
  t_words (fun _ => [9%N]) (two_leaves 4) = [2; 0; 1; 9; 1; 3; 1; 4]%N.
Proof. repeat split; reflexivity. Qed.
Example C96_case_order : poly [(1, 2); (3, 4)] <> poly [(3, 4); (1, 2)] /\
  Permutation [(1, 2); (3, 4)] [(3, 4); (1, 2)] /\ NoDup (map fst [(1, 2); (3, 4)]) /\
  (forall a b, (a =? b) = true <-> a = b).
Proof.
  split; [vm_compute; discriminate|]. split; [constructor|]. split; [|exact Nat.eqb_eq].
  repeat constructor; simpl; intuition discriminate.
Qed.
Example C96_case_names : let a := Names [NStr "x"; NStr "y"] in let b := Names [NStr "y"; NStr "x"] in
  NoDup (names_keys a) /\ NoDup (names_keys b) /\ names_eqb a b = true /\ names_eqb a (Names [NStr "x"; NStr "z"]) = false /\
  names_eqb a (Names [NStr "x"]) = false /\
  names_keys (from_meta (E := nat) a b 1%N (Some (NStr "w"))) <> names_keys (from_meta (E := nat) b a 1%N (Some (NStr "w"))) /\
  names_navigate a (Names [NStr "z"]) (PCenter (NStr "y")) = NavLeft (PCenter (NStr "y")).
Proof.
  cbv zeta. split; [repeat constructor; simpl; intuition discriminate|]. split; [repeat constructor; simpl; intuition discriminate|].
  repeat split; vm_compute; try reflexivity. discriminate.
Qed.
