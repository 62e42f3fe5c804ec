(** * Equality and hashing. *)

From Coq Require Import Permutation.
From Verif Require Import Base RazMetaModel TrieModel EqualModel EqualSpec.

Section Trie.
Context {K V : Type}.
Implicit Types s t u : trie K V.

Lemma bits_eqb_eq a b : bits_eqb a b = true <-> a = b.
Proof.
  destruct a as [x y], b as [x' y']. unfold bits_eqb. cbn [b_bits b_len]. rewrite andb_true_iff, !N.eqb_eq.
  split; [intros [-> ->]; reflexivity|now intros [= -> ->]].
Qed.
Lemma name_eqb_iff a b : name_eqb a b = true <-> a = b.
Proof. unfold name_eqb. destruct (name_eq_dec a b); split; congruence. Qed.

Lemma eqb_alike s : forall t, t_eqb s t = true <-> alike s t.
Proof.
  induction s as [|h m|b n l IHl r IHr]; intros [|h' m'|b' n' l' r']; cbn [t_eqb];
    try (split; [discriminate|intros H; inversion H]).
  - split; [constructor|reflexivity].
  - rewrite N.eqb_eq. split; [intros ->; constructor|now inversion 1].
  - rewrite !andb_true_iff, bits_eqb_eq, name_eqb_iff, IHl, IHr. split.
    + intros [[[-> ->] A] B]. now constructor.
    + inversion 1; subst. auto.
Qed.
Lemma alike_equivalence : equivalence (@t_eqb K V).
Proof.
  split; [|split].
  - intros t. apply eqb_alike. induction t; constructor; auto.
  - intros s t H. apply eqb_alike in H. apply eqb_alike. induction H; constructor; auto.
  - intros s t u H J. apply eqb_alike in H, J. apply eqb_alike. revert u J.
    induction H; intros u J; inversion J; subst; constructor; auto.
Qed.
Lemma alike_hash (name_words : name -> list N) : hash_lawful (@t_eqb K V) (t_words name_words).
Proof.
  intros s t H. apply eqb_alike in H. induction H as [| |b n l r l' r' _ IHl _ IHr]; [reflexivity|reflexivity|].
  cbn [t_words]. now rewrite IHl, IHr.
Qed.
(** Made from a map listed in two orders. *)
Lemma order_matters (digest : list (K * V) -> N) m m' :
  t_eqb (from_hashmap digest m) (from_hashmap digest m') = true <-> digest m = digest m'.
Proof. unfold from_hashmap, leaf_of. cbn [t_eqb]. apply N.eqb_eq. Qed.
Lemma same_lookups (keqb : K -> K -> bool) (sound : forall a b, keqb a b = true <-> a = b) m m' k : NoDup (map fst m) -> Permutation m m' ->
  m_get (V := V) keqb m k = m_get keqb m' k.
Proof.
  intros N P. assert (Q : NoDup (map fst m')) by (eapply Permutation_NoDup; [apply Permutation_map, P|exact N]).
  assert (X : forall m : list (K * V), NoDup (map fst m) -> forall v, m_get keqb m k = Some v <-> In (k, v) m).
  { clear -sound. induction m as [|[a x] m IH]; intros N v; cbn [m_get]; [split; [discriminate|intros []]|].
    cbn [map fst] in N. inversion N as [|? ? N1 N2]; subst. destruct (keqb k a) eqn:Q.
    - apply sound in Q. subst a. split; [intros [= ->]; now left|]. intros [[= ->]|I]; [reflexivity|].
      exfalso. apply N1. change k with (fst (k, v)). now apply in_map.
    - rewrite IH by exact N2. split; [now right|]. intros [[= -> ->]|I]; [|exact I].
      rewrite (proj2 (sound k k) eq_refl) in Q. discriminate. }
  destruct (m_get keqb m k) as [v|] eqn:G.
  - symmetry. apply X; [exact Q|]. eapply Permutation_in; [exact P|]. now apply X.
  - destruct (m_get keqb m' k) as [v|] eqn:G'; [|reflexivity]. apply X in G'; [|exact Q].
    apply Permutation_sym in P. apply (Permutation_in _ P) in G'. apply (X m N) in G'. congruence.
Qed.
End Trie.

(** ** Names *)
Lemma contains_in ks k : contains_key ks k = true <-> In k ks.
Proof.
  unfold contains_key. rewrite existsb_exists. split.
  - intros (x & I & Q). apply name_eqb_iff in Q. now subst.
  - intros I. exists k. split; [exact I|now apply name_eqb_iff].
Qed.
Lemma names_eqb_set a b : NoDup (names_keys a) -> NoDup (names_keys b) ->
  names_eqb a b = true <-> forall k, In k (names_keys a) <-> In k (names_keys b).
Proof.
  intros Na Nb. unfold names_eqb. rewrite andb_true_iff, Nat.eqb_eq, forallb_forall. split.
  - intros [L H] k. split; [intros I; now apply contains_in, H|].
    intros I. assert (J : incl (names_keys b) (names_keys a)); [|now apply J].
    apply NoDup_length_incl; [exact Na|lia|]. intros x Ix. now apply contains_in, H.
  - intros H. split; [|intros x I; now apply contains_in, H].
    apply Nat.le_antisymm; apply NoDup_incl_length; auto; intros x; apply H.
Qed.
Lemma insert_in k ks x : In x (key_insert k ks) <-> x = k \/ In x ks.
Proof.
  unfold key_insert. destruct (contains_key ks k) eqn:C; [|cbn [In]; intuition].
  apply contains_in in C. split; [auto|]. intros [->|H]; auto.
Qed.
Lemma insert_nodup k ks : NoDup ks -> NoDup (key_insert k ks).
Proof.
  intros N. unfold key_insert. destruct (contains_key ks k) eqn:C; [exact N|]. constructor; [|exact N].
  intros I. apply contains_in in I. congruence.
Qed.
Lemma inserts_in l : forall ks x, In x (fold_left (fun h k => key_insert k h) l ks) <-> In x l \/ In x ks.
Proof.
  induction l as [|k l IH]; intros ks x; cbn [fold_left]; [cbn [In]; tauto|].
  rewrite IH, insert_in. cbn [In]. intuition.
Qed.
Lemma inserts_nodup l : forall ks, NoDup ks -> NoDup (fold_left (fun h k => key_insert k h) l ks).
Proof. induction l as [|k l IH]; intros ks N; cbn [fold_left]; [exact N|]. now apply IH, insert_nodup. Qed.
Lemma oinsert_in n ks x : In x (oinsert n ks) <-> n = Some x \/ In x ks.
Proof. destruct n as [k|]; cbn [oinsert]; [rewrite insert_in|]; intuition congruence. Qed.
Lemma oinsert_nodup n ks : NoDup ks -> NoDup (oinsert n ks).
Proof. destruct n; [apply insert_nodup|auto]. Qed.
Lemma names_made {E} (l r : names) lv n : NoDup (names_keys (from_meta (E := E) l r lv n)).
Proof. cbn [from_meta names_meta names_keys]. apply oinsert_nodup, inserts_nodup, inserts_nodup. constructor. Qed.
Lemma from_meta_in {E} (l r : names) lv n x :
  In x (names_keys (from_meta (E := E) l r lv n)) <-> n = Some x \/ In x (names_keys l) \/ In x (names_keys r).
Proof. cbn [from_meta names_meta names_keys]. rewrite oinsert_in, !inserts_in. cbn [In]. tauto. Qed.

Lemma names_congruent {E} l l' r r' : NoDup (names_keys l) -> NoDup (names_keys l') -> NoDup (names_keys r) -> NoDup (names_keys r') ->
  names_eqb l l' = true -> names_eqb r r' = true ->
  (forall i, names_navigate l r i = names_navigate l' r' i) /\
  (forall lv n, names_eqb (from_meta (E := E) l r lv n) (from_meta (E := E) l' r' lv n) = true).
Proof.
  intros A B C D Hl Hr. pose proof (proj1 (names_eqb_set l l' A B) Hl) as Sl. pose proof (proj1 (names_eqb_set r r' C D) Hr) as Sr. split.
  - intros [| |k]; [reflexivity|reflexivity|]. cbn [names_navigate].
    assert (X : forall a b, (forall k, In k a <-> In k b) -> contains_key a k = contains_key b k).
    { intros a b H. apply eq_true_iff_eq. now rewrite !contains_in. }
    now rewrite (X _ _ Sl), (X _ _ Sr).
  - intros lv n. apply names_eqb_set; [apply names_made|apply names_made|].
    intros k. now rewrite !from_meta_in, Sl, Sr.
Qed.
Lemma names_equivalence : (forall a, NoDup (names_keys a) -> names_eqb a a = true) /\
  (forall a b, NoDup (names_keys a) -> NoDup (names_keys b) -> names_eqb a b = true -> names_eqb b a = true) /\
  (forall a b c, NoDup (names_keys a) -> NoDup (names_keys b) -> NoDup (names_keys c) ->
    names_eqb a b = true -> names_eqb b c = true -> names_eqb a c = true).
Proof.
  split; [|split].
  - intros a N. now apply names_eqb_set.
  - intros a b Na Nb H. apply names_eqb_set; auto. pose proof (proj1 (names_eqb_set a b Na Nb) H) as Q. intros k. symmetry. apply Q.
  - intros a b c Na Nb Nc H J. apply names_eqb_set; auto. pose proof (proj1 (names_eqb_set a b Na Nb) H) as Q.
    pose proof (proj1 (names_eqb_set b c Nb Nc) J) as R. intros k. now rewrite Q, R.
Qed.
