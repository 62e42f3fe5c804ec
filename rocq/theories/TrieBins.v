(** * Proofs about the inner nodes of tries. *)

From Verif Require Import Base BaseFacts SkiplistModel SkiplistProofs TrieModel TrieProofs TrieSpec.

Section Find.
Context {K V : Type} (keqb : K -> K -> bool).
Hypothesis keqb_eq : forall a b, keqb a b = true <-> a = b.

Lemma low_bit h : (N.land h 1 =? 0)%N = negb (N.testbit h 0).
Proof.
  change 1%N with (N.ones 1). rewrite N.land_ones, N.bit0_eqb. change (2 ^ 1)%N with 2%N.
  pose proof (N.mod_lt h 2 ltac:(discriminate)) as H. generalize dependent (h mod 2)%N. intros x H.
  destruct (N.eqb_spec x 0) as [A|A], (N.eqb_spec x 1) as [B|B]; try reflexivity; lia.
Qed.

Lemma map_at_shift (t : trie K V) : forall h i, map_at t (N.shiftr h 1) i = map_at t h (i + 1).
Proof.
  induction t as [|d m|b n l IHl r IHr]; intros h i; try reflexivity. cbn [map_at].
  rewrite N.shiftr_spec by lia. destruct (N.testbit h (i + 1)); auto.
Qed.

Lemma map_at_ok (t : trie K V) : forall h i, maps_ok t -> NoDup (map fst (map_at t h i)).
Proof.
  induction t as [|d m|b n l IHl r IHr]; intros h i H; [constructor|exact H|]. destruct H as [Hl Hr].
  cbn [map_at]. destruct (N.testbit h i); auto.
Qed.

Lemma find_get (t : trie K V) : forall h k, t_find keqb t h k = m_get keqb (map_at t h 0) k.
Proof.
  induction t as [|d m|b n l IHl r IHr]; intros h k; try reflexivity. cbn [t_find map_at].
  rewrite low_bit. destruct (N.testbit h 0); cbn [negb]; [rewrite IHr|rewrite IHl]; now rewrite map_at_shift.
Qed.

Theorem find_path (t : trie K V) h k v : maps_ok t ->
  (t_find keqb t h k = Some v <-> In (k, v) (map_at t h 0)).
Proof. intros H. rewrite find_get. apply m_get_in; [exact keqb_eq|]. now apply map_at_ok. Qed.

Lemma get_insert (m : list (K * V)) k v k' :
  m_get keqb (m_insert keqb k v m) k' = if keqb k' k then Some v else m_get keqb m k'.
Proof.
  induction m as [|[k0 v0] m IH]; [reflexivity|]. cbn [m_insert].
  destruct (keqb k k0) eqn:E; cbn [m_get].
  - apply keqb_eq in E. subst k0. now destruct (keqb k' k).
  - rewrite IH. destruct (keqb k' k0) eqn:E'; [|reflexivity]. apply keqb_eq in E'. subst k'.
    destruct (keqb k0 k) eqn:E2; [|reflexivity]. apply keqb_eq in E2. subst k0.
    rewrite (proj2 (keqb_eq k k) eq_refl) in E. discriminate.
Qed.
Lemma insert_keys (m : list (K * V)) k v x : In x (map fst (m_insert keqb k v m)) <-> x = k \/ In x (map fst m).
Proof.
  induction m as [|[k0 v0] m IH]; [simpl; intuition|]. cbn [m_insert].
  destruct (keqb k k0) eqn:E; simpl.
  - apply keqb_eq in E. subst. intuition.
  - rewrite IH. intuition.
Qed.
Lemma insert_nodup (m : list (K * V)) k v : NoDup (map fst m) -> NoDup (map fst (m_insert keqb k v m)).
Proof.
  induction m as [|[k0 v0] m IH]; intros D; [constructor; [easy|constructor]|]. cbn [m_insert].
  inversion D as [|? ? N D']; subst.
  destruct (keqb k k0) eqn:E; simpl; [exact D|]. constructor; [|auto].
  rewrite insert_keys. intros [->|H]; [|auto]. rewrite (proj2 (keqb_eq k k) eq_refl) in E. discriminate.
Qed.

Lemma get_none (m : list (K * V)) k : ~ In k (map fst m) -> m_get keqb m k = None.
Proof.
  induction m as [|[k0 v0] m IH]; intros H; [reflexivity|]. cbn [m_get].
  destruct (keqb k k0) eqn:E; [apply keqb_eq in E; subst; elim H; now left|]. apply IH. intros X. apply H. now right.
Qed.

Variable my_hash : K -> N.

(** The bit at which a map is split. *)
Lemma bit_of h i : (N.land h (N.shiftl 1 i) =? 0)%N = negb (N.testbit h i).
Proof.
  destruct (N.testbit h i) eqn:B; cbn [negb].
  - apply N.eqb_neq. intros X. apply (f_equal (fun n => N.testbit n i)) in X.
    rewrite N.land_spec, B, N.shiftl_spec_high', N.sub_diag, N.bits_0 in X by lia. discriminate.
  - apply N.eqb_eq. apply N.bits_inj. intros j. rewrite N.bits_0, N.land_spec.
    destruct (N.eq_dec j i) as [->|Ne]; [now rewrite B|].
    destruct (N.lt_ge_cases j i) as [L|G].
    + rewrite N.shiftl_spec_low by lia. apply Bool.andb_false_r.
    + rewrite N.shiftl_spec_high' by lia. replace (N.testbit 1 (j - i)) with false; [apply Bool.andb_false_r|].
      destruct (j - i)%N eqn:D; [lia|]. reflexivity.
Qed.

Lemma split_loop_ok mask b (m : list (K * V)) : (b_len b + 1 < 64)%N ->
  (forall k, In k (map fst m) -> N.land mask (my_hash k) = b_bits b) -> NoDup (map fst m) ->
  forall m0 m1, exists r0 r1, split_loop keqb my_hash m mask b m0 m1 = Ok (r0, r1) /\
    (forall k, m_get keqb r0 k = match m_get keqb m k with
       | Some v => if N.testbit (my_hash k) (b_len b + 1) then m_get keqb m0 k else Some v
       | None => m_get keqb m0 k end) /\
    (forall k, m_get keqb r1 k = match m_get keqb m k with
       | Some v => if N.testbit (my_hash k) (b_len b + 1) then Some v else m_get keqb m1 k
       | None => m_get keqb m1 k end).
Proof.
  intros L. induction m as [|[k v] m IH]; intros Mk D m0 m1.
  - exists m0, m1. auto.
  - inversion D as [|? ? N D']; subst. cbn [split_loop].
    rewrite (Mk k) by now left. rewrite N.eqb_refl. cbn [assert bind].
    apply N.ltb_lt in L as L'. rewrite L'. cbn [assert bind]. rewrite bit_of.
    assert (Gk : m_get keqb m k = None) by now apply get_none.
    destruct (N.testbit (my_hash k) (b_len b + 1)) eqn:B; cbn [negb].
    + destruct (IH ltac:(intros x Hx; apply Mk; now right) D' m0 (m_insert keqb k v m1)) as (r0 & r1 & R & G0 & G1).
      exists r0, r1. split; [exact R|]. split; intros x; [rewrite G0|rewrite G1]; cbn [m_get].
      * destruct (keqb x k) eqn:E; [|reflexivity]. apply keqb_eq in E. subst x. now rewrite Gk, B.
      * rewrite get_insert. destruct (keqb x k) eqn:E; [|reflexivity]. apply keqb_eq in E. subst x. now rewrite Gk, B.
    + destruct (IH ltac:(intros x Hx; apply Mk; now right) D' (m_insert keqb k v m0) m1) as (r0 & r1 & R & G0 & G1).
      exists r0, r1. split; [exact R|]. split; intros x; [rewrite G0|rewrite G1]; cbn [m_get].
      * rewrite get_insert. destruct (keqb x k) eqn:E; [|reflexivity]. apply keqb_eq in E. subst x. now rewrite Gk, B.
      * destruct (keqb x k) eqn:E; [|reflexivity]. apply keqb_eq in E. subst x. now rewrite Gk, B.
Qed.

Theorem split_ok (m m0 m1 : list (K * V)) b : (0 < b_len b)%N -> (b_len b + 1 < 64)%N -> NoDup (map fst m) ->
  (forall k, In k (map fst m) -> my_hash k mod 2 ^ b_len b = b_bits b)%N ->
  exists r0 r1, split_map keqb my_hash m b m0 m1 = Ok (r0, r1) /\
    (forall k, m_get keqb r0 k = match m_get keqb m k with
       | Some v => if N.testbit (my_hash k) (b_len b + 1) then m_get keqb m0 k else Some v
       | None => m_get keqb m0 k end) /\
    (forall k, m_get keqb r1 k = match m_get keqb m k with
       | Some v => if N.testbit (my_hash k) (b_len b + 1) then Some v else m_get keqb m1 k
       | None => m_get keqb m1 k end).
Proof.
  intros P L D Mk. unfold split_map. rewrite make_mask_spec by lia. cbn [bind].
  apply split_loop_ok; [exact L| |exact D].
  intros k Hk. rewrite N.land_comm, N.land_ones. replace (N.of_nat (Nat.min (N.to_nat (b_len b)) 64)) with (b_len b) by lia.
  now apply Mk.
Qed.

(** A map with a key that does not belong is refused. *)
Lemma split_bad (m m0 m1 : list (K * V)) b : (0 < b_len b)%N -> (b_len b + 1 < 64)%N ->
  (exists k, In k (map fst m) /\ my_hash k mod 2 ^ b_len b <> b_bits b)%N ->
  split_map keqb my_hash m b m0 m1 = Panic "assert mask & k_hash == bits".
Proof.
  intros P L (k & Hk & Bad). unfold split_map. rewrite make_mask_spec by lia. cbn [bind].
  replace (N.of_nat (Nat.min (N.to_nat (b_len b)) 64)) with (b_len b) by lia. revert m0 m1.
  induction m as [|[k0 v0] m IH]; [easy|]. intros m0 m1. cbn [split_loop].
  rewrite N.land_comm, N.land_ones.
  destruct (N.eqb_spec (my_hash k0 mod 2 ^ b_len b) (b_bits b)) as [E|Ne]; [|reflexivity]. cbn [assert bind].
  apply N.ltb_lt in L as L'. rewrite L'. cbn [assert bind].
  destruct Hk as [Hk|Hk]; [cbn in Hk; subst k0; contradiction|]. rewrite bit_of. destruct (N.testbit _ _); cbn [negb]; auto.
Qed.

(** The union of two branches joins the two children of each, which is refused as soon
    as the right child has a key where [find] looks for it. *)
Theorem union_bins digest d1 d2 n1 (ml mr : list (K * V)) rb n2 rl rr n :
  NoDup (map fst ml) -> (forall k, In k (map fst ml) -> N.testbit (my_hash k) 0 = false) ->
  (exists k, In k (map fst mr) /\ N.testbit (my_hash k) 0 = true) -> bits_eqb (Bits 0 0) rb = true ->
  union keqb my_hash digest (TBin (Bits 0 0) n1 (TLeaf d1 ml) (TLeaf d2 mr)) (TBin rb n2 rl rr) n =
    Panic "assert mask & k_hash == bits".
Proof.
  intros D El (k & Hk & Od) Rb. unfold union.
  replace (S (Nat.max _ _)) with (S (S (Nat.max 0 (Nat.max (t_depth rl) (t_depth rr))))) by (cbn; lia).
  cbn [union_rec]. rewrite Rb. cbn [bits_eqb b_bits b_len N.eqb andb assert bind].
  change (0 <? u32_max)%N with true. change (0 <? 32)%N with true. cbn [assert bind]. change (0 + 1)%N with 1%N.
  destruct (split_ok ml [] [] (Bits 0 1)) as (r0 & r1 & -> & _); [reflexivity|reflexivity|exact D| |].
  { intros x Hx. change (my_hash x mod 2 = 0)%N. specialize (El x Hx). rewrite N.bit0_eqb in El.
    apply N.eqb_neq in El. pose proof (N.mod_lt (my_hash x) 2 ltac:(discriminate)) as Lt.
    generalize dependent (my_hash x mod 2)%N. intros; lia. }
  cbn [bind]. rewrite split_bad; [reflexivity|reflexivity|reflexivity|].
  exists k. split; [exact Hk|]. change (my_hash k mod 2 <> 0)%N. rewrite N.bit0_eqb in Od. apply N.eqb_eq in Od.
  generalize dependent (my_hash k mod 2)%N. intros; lia.
Qed.
End Find.

(** Branches of which each has an empty child. *)
Definition the_child {K V} (t u : trie K V) : trie K V := match t with TEmpty => u | _ => t end.
Lemma union_pairs {K V} (keqb : K -> K -> bool) my_hash digest n n1 n2 (ll lr rl rr : trie K V) :
  ll = TEmpty \/ lr = TEmpty -> rl = TEmpty \/ rr = TEmpty ->
  union keqb my_hash digest (TBin (Bits 0 0) n1 ll lr) (TBin (Bits 0 0) n2 rl rr) n =
    Ok (TBin (Bits 0 0) n (the_child ll lr) (the_child rl rr)).
Proof.
  intros A B. unfold union. set (f := Nat.max _ _).
  assert (F : exists f', f = S f') by (unfold f; cbn [t_depth]; destruct (Nat.max (t_depth ll) (t_depth lr)), (Nat.max (t_depth rl) (t_depth rr)); eexists; reflexivity).
  destruct F as (f' & F). rewrite F. clear F f.
  assert (One : forall s t : trie K V, s = TEmpty \/ t = TEmpty -> forall b m, union_rec keqb my_hash digest (S f') s t b m = Ok (the_child s t)).
  { intros s t [->| ->] b m; [reflexivity|]. now destruct s. }
  change (union_rec keqb my_hash digest (S (S f')) (TBin (Bits 0 0) n1 ll lr) (TBin (Bits 0 0) n2 rl rr) (Bits 0 0) n) with
    (do l <- union_rec keqb my_hash digest (S f') ll lr (Bits 0 1) n1;
     do r <- union_rec keqb my_hash digest (S f') rl rr (Bits 0 1) n2;
     Ok (TBin (Bits 0 0) n l r)).
  rewrite !One by assumption. reflexivity.
Qed.
Lemma union_pairs_all {K V} (keqb : K -> K -> bool) my_hash digest n n1 n2 (t u : trie K V) :
  let bin m l r := TBin (Bits 0 0) m l r in
  union keqb my_hash digest (bin n1 t TEmpty) (bin n2 TEmpty u) n = Ok (bin n t u) /\
  union keqb my_hash digest (bin n1 TEmpty t) (bin n2 u TEmpty) n = Ok (bin n t u) /\
  union keqb my_hash digest (bin n1 TEmpty t) (bin n2 TEmpty u) n = Ok (bin n t u) /\
  union keqb my_hash digest (bin n1 t TEmpty) (bin n2 u TEmpty) n = Ok (bin n t u).
Proof.
  assert (X : forall s : trie K V, the_child s TEmpty = s) by now intros [].
  cbv zeta. rewrite !union_pairs by auto. cbn [the_child]. rewrite !X. auto.
Qed.
