(** * Proofs about levels and element types. *)

From Verif Require Import Base BaseFacts TypesModel.

(** [l'] is the least number above [l]. *)
Lemma inc_next debug top l : (l < top)%N -> exists l', l_inc debug top l = Ok l' /\ (l < l')%N /\ (l' <= l_max top)%N /\
  (forall k, (l < k)%N -> (l' <= k)%N) /\ l_dec debug top l' = Ok l.
Proof.
  intros H. exists (l + 1)%N. unfold l_inc, l_dec, ovf_add, ovf_sub, l_max.
  assert (A : (top <? l + 1)%N = false) by (apply N.ltb_ge; lia).
  assert (B : (l + 1 <? 1)%N = false) by (apply N.ltb_ge; lia).
  rewrite A, B. split; [reflexivity|]. split; [lia|]. split; [lia|]. split; [intros; lia|]. f_equal. lia.
Qed.
Lemma dec_next debug top l : (0 < l)%N -> (l <= top)%N -> exists l', l_dec debug top l = Ok l' /\ (l' < l)%N /\ (l_min top <= l')%N /\
  (forall k, (k < l)%N -> (k <= l')%N) /\ l_inc debug top l' = Ok l.
Proof.
  intros H T. exists (l - 1)%N. unfold l_inc, l_dec, ovf_add, ovf_sub, l_min.
  assert (A : (top <? l - 1 + 1)%N = false) by (apply N.ltb_ge; lia).
  assert (B : (l <? 1)%N = false) by (apply N.ltb_ge; lia).
  rewrite A, B. split; [reflexivity|]. split; [lia|]. split; [lia|]. split; [intros; lia|]. f_equal. lia.
Qed.
Lemma inc_max debug top : l_inc debug top (l_max top) =
  if debug then Panic "attempt to add with overflow" else Ok (l_min top).
Proof.
  unfold l_inc, ovf_add, l_max, l_min. assert (A : (top <? top + 1)%N = true) by (apply N.ltb_lt; lia).
  rewrite A. destruct debug; [reflexivity|]. f_equal. apply N.mod_same. lia.
Qed.
Lemma dec_min debug top : l_dec debug top (l_min top) =
  if debug then Panic "attempt to subtract with overflow" else Ok (l_max top).
Proof.
  unfold l_dec, ovf_sub, l_max, l_min. simpl. destruct debug; [reflexivity|]. f_equal.
  replace (top + 1 - 1)%N with top by lia. apply N.mod_small. lia.
Qed.

(** The words below [w] with remainder [r] by [m]. *)
Lemma words_of m w r : (0 < m)%N -> (r < m)%N -> forall word, (word < w)%N ->
  (word mod m = r <-> exists q, word = r + m * q /\ (q < w / m + (if r <? w mod m then 1 else 0)))%N.
Proof.
  intros M R word W. pose proof (N.div_mod w m ltac:(lia)) as D. pose proof (N.mod_lt w m ltac:(lia)) as L.
  split.
  - intros E. exists (word / m)%N. pose proof (N.div_mod word m ltac:(lia)) as D'. rewrite E in D'. split; [lia|].
    apply (N.mul_lt_mono_pos_l m); [exact M|].
    rewrite N.mul_add_distr_l.
    destruct (N.ltb_spec r (w mod m)) as [Lt|Ge];
      generalize dependent (w mod m)%N; generalize dependent (m * (w / m))%N;
      generalize dependent (m * (word / m))%N; intros; lia.
  - intros (q & -> & _). rewrite N.mul_comm, N.mod_add by lia. now apply N.mod_small.
Qed.
Lemma words_below m w r : (0 < m)%N -> (r < m)%N -> forall q,
  (q < w / m + (if r <? w mod m then 1 else 0))%N -> (r + m * q < w)%N.
Proof.
  intros M R q H. pose proof (N.div_mod w m ltac:(lia)) as D. pose proof (N.mod_lt w m ltac:(lia)) as L.
  assert (H' : (q + 1 <= w / m + (if r <? w mod m then 1 else 0))%N) by lia.
  apply (N.mul_le_mono_l _ _ m) in H'.
  rewrite !N.mul_add_distr_l in H'.
  destruct (N.ltb_spec r (w mod m)) as [Lt|Ge];
    generalize dependent (w mod m)%N; generalize dependent (m * (w / m))%N;
    generalize dependent (m * q)%N; intros; lia.
Qed.

Lemma sum_exact debug (l : list N) : forall a, (fold_left N.add l a <= usize_max)%N ->
  fold_left (fun s x => do s <- s; gen_add debug s x) l (Ok a) = Ok (fold_left N.add l a).
Proof.
  induction l as [|x l IH]; intros a H; [reflexivity|]. cbn [fold_left bind] in *.
  assert (Mono : forall l a, (a <= fold_left N.add l a)%N).
  { clear. induction l as [|y l IH]; intros a; simpl; [lia|]. specialize (IH (a + y)%N). lia. }
  pose proof (Mono l (a + x)%N) as Le. unfold gen_add at 2, ovf_add.
  assert (A : (usize_max <? a + x)%N = false) by (apply N.ltb_ge; lia).
  rewrite A. now apply IH.
Qed.
Lemma sum_bound b (l : list N) : Forall (fun x => x < b)%N l -> forall a,
  (fold_left N.add l a <= a + (b - 1) * N.of_nat (length l))%N.
Proof.
  induction 1 as [|x l H F IH]; intros a; cbn [fold_left length]; [lia|].
  specialize (IH (a + x)%N). nia.
Qed.
Lemma sum_draws debug (l : list N) : Forall (fun x => x < 100)%N l -> (99 * N.of_nat (length l) <= usize_max)%N ->
  fold_left (fun s x => do s <- s; gen_add debug s x) l (Ok 0%N) = Ok (fold_left N.add l 0%N).
Proof.
  intros F L. apply sum_exact. eapply N.le_trans; [apply (sum_bound 100 l F)|]. exact L.
Qed.

Lemma hash_words e st : elm_hash e st = st ++ repeat e 100.
Proof.
  unfold elm_hash, hash_loop_count. change 100 with (length (seq 0 100)) at 2. generalize (seq 0 100) as l.
  intros l. revert st. induction l as [|x l IH]; intros st; simpl; [now rewrite app_nil_r|].
  rewrite IH. now rewrite <- app_assoc.
Qed.
Lemma hash_eq e e' st : elm_hash e st = elm_hash e' st <-> e = e'.
Proof.
  split; [|now intros ->]. rewrite !hash_words. intros H. apply app_inv_head in H.
  change 100 with (1 + 99) in H. simpl in H. congruence.
Qed.
