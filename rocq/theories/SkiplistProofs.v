(** * Proofs about the skiplist model. *)

From Verif Require Import Base SkiplistModel MapScripts.

(** ** Bits *)

Definition bit (x : N) (i : nat) : bool := N.testbit x (N.of_nat i).

(** The first [b] bits agree. *)
Fixpoint agreeb (b : nat) (x y : N) : bool :=
  match b with
  | O => true
  | S b' => agreeb b' x y && Bool.eqb (bit x b') (bit y b')
  end.

Lemma agreeb_spec b x y : agreeb b x y = true <-> forall i, i < b -> bit x i = bit y i.
Proof.
  induction b as [|b IH]; cbn.
  - split; [lia|reflexivity].
  - rewrite andb_true_iff, IH, Bool.eqb_true_iff. split.
    + intros [H E] i Hi. destruct (Nat.eq_dec i b) as [->|]; auto. apply H. lia.
    + intros H. split; [intros i Hi|]; apply H; lia.
Qed.

Lemma agreeb_refl b x : agreeb b x x = true.
Proof. apply agreeb_spec. reflexivity. Qed.

Lemma agreeb_mono b b' x y : b' <= b -> agreeb b x y = true -> agreeb b' x y = true.
Proof. rewrite !agreeb_spec. intros H A i Hi. apply A. lia. Qed.

Lemma agreeb_swap b x y z : agreeb b x y = true -> agreeb b z x = agreeb b z y.
Proof.
  intros H. apply eq_true_iff_eq. rewrite !agreeb_spec. rewrite agreeb_spec in H.
  split; intros A i Hi; rewrite A by exact Hi; [|symmetry]; auto.
Qed.

Lemma bit_above x i : (x < 2 ^ 64)%N -> 64 <= i -> bit x i = false.
Proof.
  intros H Hi. unfold bit. destruct (N.eq_dec x 0) as [->|X]; [apply N.bits_0|].
  apply N.bits_above_log2. assert (N.log2 x < 64)%N by (apply N.log2_lt_pow2; lia). lia.
Qed.

Lemma bit_over x w i : (x < 2 ^ N.of_nat w)%N -> w <= i -> bit x i = false.
Proof.
  intros H Hi. unfold bit. destruct (N.eq_dec x 0) as [->|X]; [apply N.bits_0|].
  apply N.bits_above_log2. assert (N.log2 x < N.of_nat w)%N by (apply N.log2_lt_pow2; lia). lia.
Qed.

Lemma agreeb_eq w x y : (x < 2 ^ N.of_nat w)%N -> (y < 2 ^ N.of_nat w)%N -> agreeb w x y = true -> x = y.
Proof.
  intros Hx Hy H. rewrite agreeb_spec in H. apply N.bits_inj. intros n.
  destruct (lt_dec (N.to_nat n) w) as [L|L].
  - specialize (H (N.to_nat n) L). unfold bit in H. now rewrite !N2Nat.id in H.
  - assert (w <= N.to_nat n) as L' by lia.
    pose proof (bit_over x w _ Hx L') as A. pose proof (bit_over y w _ Hy L') as B.
    unfold bit in A, B. rewrite N2Nat.id in A, B. congruence.
Qed.

Lemma land1 x : N.land x 1 = N.b2n (N.testbit x 0).
Proof.
  change 1%N with (N.ones 1) at 1. rewrite N.land_ones. rewrite N.bit0_mod. reflexivity.
Qed.

Lemma low_bits x y i :
  (N.land (N.shiftr x (N.of_nat i)) 1 =? N.land (N.shiftr y (N.of_nat i)) 1)%N = Bool.eqb (bit x i) (bit y i).
Proof.
  rewrite !land1, !N.shiftr_spec' . cbn [N.add]. unfold bit.
  replace (0 + N.of_nat i)%N with (N.of_nat i) by lia.
  destruct (N.testbit x (N.of_nat i)), (N.testbit y (N.of_nat i)); reflexivity.
Qed.

Lemma shiftr_succ x i : N.shiftr (N.shiftr x (N.of_nat i)) 1 = N.shiftr x (N.of_nat (S i)).
Proof. rewrite N.shiftr_shiftr. f_equal. lia. Qed.

(** Equal after the shift and agreeing below means equal. *)
Lemma shiftr_eq b x y : agreeb b x y = true ->
  N.shiftr x (N.of_nat b) = N.shiftr y (N.of_nat b) -> x = y.
Proof.
  intros A E. apply N.bits_inj. intros n. rewrite agreeb_spec in A.
  destruct (lt_dec (N.to_nat n) b) as [L|L].
  - specialize (A _ L). unfold bit in A. now rewrite !N2Nat.id in A.
  - assert (n = (n - N.of_nat b) + N.of_nat b)%N as -> by lia.
    rewrite <- !N.shiftr_spec'. now rewrite E.
Qed.

(** ** The mask *)

Lemma mask_step m : m <= 64 ->
  N.lor ((2 * N.ones (N.of_nat m)) mod usize_mod) 1 = N.ones (N.of_nat (Nat.min (S m) 64)).
Proof.
  intros H. destruct (Nat.eq_dec m 64) as [->|]; [reflexivity|].
  rewrite Nat.min_l by lia. rewrite N.ones_equiv.
  assert (N.pred (2 ^ N.of_nat m) < 2 ^ 63)%N.
  { assert (2 ^ N.of_nat m <= 2 ^ 63)%N by (apply N.pow_le_mono_r; lia).
    assert (0 < 2 ^ N.of_nat m)%N by (apply N.neq_0_lt_0, N.pow_nonzero; lia). lia. }
  rewrite N.mod_small by (unfold usize_mod; lia).
  rewrite N.ones_equiv. rewrite Nat2N.inj_succ, N.pow_succ_r'.
  assert (0 < 2 ^ N.of_nat m)%N by (apply N.neq_0_lt_0, N.pow_nonzero; lia).
  replace (N.pred (2 * 2 ^ N.of_nat m)) with (2 * N.pred (2 ^ N.of_nat m) + 1)%N by lia.
  set (x := N.pred (2 ^ N.of_nat m)). destruct x; reflexivity.
Qed.

Lemma mask_loop_ones n m : m <= 64 -> mask_loop n (N.ones (N.of_nat m)) = N.ones (N.of_nat (Nat.min (n + m) 64)).
Proof.
  revert m. induction n as [|n IH]; intros m H; cbn [mask_loop].
  - rewrite Nat.min_l by lia. reflexivity.
  - rewrite mask_step by exact H. rewrite IH by lia. do 2 f_equal. lia.
Qed.

Lemma make_mask_spec len : 0 < len -> make_mask len = Ok (N.ones (N.of_nat (Nat.min len 64))).
Proof.
  intros H. unfold make_mask. apply Nat.ltb_lt in H. rewrite H. cbn [assert bind].
  change 0%N with (N.ones (N.of_nat 0)). rewrite mask_loop_ones by lia. now rewrite Nat.add_0_r.
Qed.

(** ** The path invariant *)

Section Proofs.
Context {K V : Type} (keqb : K -> K -> bool) (my_hash : K -> N) (debug : bool).
Context (keqb_spec : forall a b, keqb a b = true <-> a = b).
Context (L : nat) (L_pos : 0 < L) (L_debug : debug = true -> L < 64).

Notation path := (path K V).
Let w := Nat.min L 64.
Let small (x : N) : Prop := (x < 2 ^ N.of_nat w)%N.

Lemma small_agree x y : small x -> small y -> agreeb w x y = true -> x = y.
Proof. apply agreeb_eq. Qed.

(** [q] agrees with [key] on exactly the first [i] bits. *)
Definition diverges (i : nat) (key : N) (q : path) : bool :=
  agreeb i (p_hash q) key && negb (Bool.eqb (bit (p_hash q) i) (bit key i)).

Definition latest (ps : list path) (key : N) (i : nat) : option path := find (diverges i key) ps.

Definition has_hash (key : N) (q : path) : bool := (p_hash q =? key)%N.

(** Paths, newest first. *)
Fixpoint wf (ps : list path) : Prop :=
  match ps with
  | [] => True
  | p :: rest =>
      small (p_hash p) /\ p_paths p = map (latest rest (p_hash p)) (seq 0 L) /\ wf rest
  end.

Lemma latest_nil key n a : repeat None n = map (latest [] key) (seq a n).
Proof. revert a. induction n as [|n IH]; intros a; [reflexivity|]. cbn. now rewrite <- IH. Qed.

Lemma find_split {A} (f : A -> bool) l x : find f l = Some x ->
  exists l1 l2, l = l1 ++ x :: l2 /\ (forall y, In y l1 -> f y = false) /\ f x = true.
Proof.
  induction l as [|a l IH]; cbn; [discriminate|]. destruct (f a) eqn:E.
  - injection 1 as ->. exists [], l. split; [reflexivity|]. split; [intros y []|exact E].
  - intros H. destruct (IH H) as (l1 & l2 & -> & N & F). exists (a :: l1), l2. split; [reflexivity|].
    split; [|exact F]. intros y [<-|I]; auto.
Qed.

Lemma find_skip {A} (f : A -> bool) l1 l2 : (forall y, In y l1 -> f y = false) -> find f (l1 ++ l2) = find f l2.
Proof.
  induction l1 as [|a l1 IH]; intros H; [reflexivity|]. cbn. rewrite (H a) by now left. apply IH.
  intros y I. apply H. now right.
Qed.

Lemma find_ext {A} (f g : A -> bool) l : (forall x, f x = g x) -> find f l = find g l.
Proof. intros H. induction l as [|a l IH]; cbn; [reflexivity|]. now rewrite H, IH. Qed.

Lemma wf_app l1 l2 : wf (l1 ++ l2) -> wf l2.
Proof. induction l1 as [|a l1 IH]; cbn; tauto. Qed.

(** ** One step *)

Section Step.
Context (ps : list path) (Hwf : wf ps) (key : N) (Hkey : small key).

Lemma latest_below newer p older b : ps = newer ++ p :: older ->
  (forall q, In q newer -> agreeb b (p_hash q) key = false) -> agreeb b (p_hash p) key = true ->
  forall i, b <= i -> agreeb i (p_hash p) key = true ->
  nth_error (p_paths p) i = (if i <? L then Some (latest older (p_hash p) i) else None) /\
  (bit (p_hash p) i = bit key i -> latest ps key i = latest older (p_hash p) i) /\
  (bit (p_hash p) i <> bit key i -> latest ps key i = Some p /\
     find (fun q => agreeb (S i) (p_hash q) key) ps = latest older (p_hash p) i).
Proof.
  intros E N A i Hi Ai.
  assert (wf (p :: older)) as (S & P & _) by (eapply wf_app; rewrite <- E; exact Hwf).
  assert (forall q, In q newer -> agreeb i (p_hash q) key = false) as Ni.
  { intros q I. destruct (agreeb i (p_hash q) key) eqn:X; [|reflexivity].
    apply (agreeb_mono i b) in X; [|exact Hi]. rewrite (N q I) in X. discriminate. }
  split; [|split].
  - rewrite P, nth_error_map. destruct (Nat.ltb_spec i L) as [H|H].
    + rewrite (nth_error_nth' _ 0) by (rewrite seq_length; lia). rewrite seq_nth by lia. reflexivity.
    + rewrite (proj2 (nth_error_None _ _)) by (rewrite seq_length; lia). reflexivity.
  - intros B. unfold latest. rewrite E, find_skip.
    + cbn. unfold diverges at 1. rewrite B, Bool.eqb_reflx, andb_false_r. apply find_ext. intros q.
      unfold diverges. rewrite (agreeb_swap i _ _ (p_hash q) Ai), B. reflexivity.
    + intros q I. unfold diverges. now rewrite (Ni q I).
  - intros B. split.
    + unfold latest. rewrite E, find_skip.
      * cbn. unfold diverges at 1. rewrite Ai. destruct (Bool.eqb (bit (p_hash p) i) (bit key i)) eqn:X; [|reflexivity].
        apply Bool.eqb_prop in X. contradiction.
      * intros q I. unfold diverges. now rewrite (Ni q I).
    + rewrite E, find_skip.
      * cbn. rewrite (proj2 (Bool.eqb_false_iff _ _) B), andb_false_r. apply find_ext. intros q.
        unfold diverges. rewrite (agreeb_swap i _ _ (p_hash q) Ai). f_equal.
        revert B; destruct (bit (p_hash q) i), (bit key i), (bit (p_hash p) i); cbn; congruence.
      * intros q I. cbn. now rewrite (Ni q I).
Qed.

Definition step_post (b : nat) (p : path) (r : obs_res) : Prop :=
  (o_kvs r = Some (p_kvs p) /\ o_paths r = map (latest ps key) (seq b (L - b)) /\
     find (has_hash key) ps = Some p) \/
  (o_kvs r = None /\ o_next r = None /\ o_paths r = map (latest ps key) (seq b (L - b)) /\
     find (has_hash key) ps = None) \/
  (o_kvs r = None /\ exists i q, b <= i < L /\ i < 64 /\ o_next r = Some q /\
     o_paths r = map (latest ps key) (seq b (S i - b)) /\
     find (fun q => agreeb (S i) (p_hash q) key) ps = Some q).

Lemma has_hash_agree b q : has_hash key q = true -> agreeb b (p_hash q) key = true.
Proof. unfold has_hash. intros H. apply N.eqb_eq in H. rewrite H. apply agreeb_refl. Qed.

Lemma no_agree_no_hash b l : (forall q, In q l -> agreeb b (p_hash q) key = false) ->
  forall q, In q l -> has_hash key q = false.
Proof.
  intros N q I. destruct (has_hash key q) eqn:E; [|reflexivity]. apply (has_hash_agree b) in E.
  rewrite (N q I) in E. discriminate.
Qed.

Lemma seq_snoc a n : seq a (S n) = seq a n ++ [a + n].
Proof. rewrite <- seq_app with (len2 := 1). f_equal. lia. Qed.

Lemma match_bits_post b newer p older : ps = newer ++ p :: older ->
  (forall q, In q newer -> agreeb b (p_hash q) key = false) -> agreeb b (p_hash p) key = true ->
  p_hash p <> key ->
  forall n i, i + n = L -> b <= i -> agreeb i (p_hash p) key = true ->
  exists r, match_bits p n i (N.shiftr key (N.of_nat i)) (N.shiftr (p_hash p) (N.of_nat i))
              (map (latest ps key) (seq b (i - b))) = Ok r /\ step_post b p r.
Proof.
  intros E N A D.
  assert (wf (p :: older)) as (Sp & _) by (eapply wf_app; rewrite <- E; exact Hwf).
  induction n as [|n IH]; intros i Hn Hi Ai.
  - exfalso. apply D. apply small_agree; auto. apply (agreeb_mono i); [unfold w; lia|exact Ai].
  - destruct (latest_below newer p older b E N A i Hi Ai) as (P & Same & Diff).
    cbn [match_bits]. rewrite P. assert (i <? L = true) as -> by (apply Nat.ltb_lt; lia). cbn [unwrap bind].
    rewrite low_bits. destruct (Bool.eqb (bit key i) (bit (p_hash p) i)) eqn:B.
    + apply Bool.eqb_prop in B. rewrite !shiftr_succ.
      replace (map (latest ps key) (seq b (i - b)) ++ [latest older (p_hash p) i])
        with (map (latest ps key) (seq b (S i - b))).
      * apply IH; [lia|lia|]. cbn. rewrite Ai, B. now rewrite Bool.eqb_reflx.
      * replace (S i - b) with (S (i - b)) by lia. rewrite seq_snoc, map_app. cbn.
        replace (b + (i - b)) with i by lia. rewrite Same by (symmetry; exact B). reflexivity.
    + apply Bool.eqb_false_iff in B. destruct (Diff (fun H => B (eq_sym H))) as (Here & Next).
      assert (i < 64) as I64.
      { destruct (le_lt_dec 64 i) as [G|G]; [|exact G]. exfalso. apply B.
        assert (w <= i) by (unfold w; lia). rewrite (bit_over key w), (bit_over (p_hash p) w); auto. }
      destruct (latest older (p_hash p) i) as [a|] eqn:Lt.
      * eexists. split; [reflexivity|]. right; right. split; [reflexivity|]. exists i, a.
        split; [lia|]. split; [exact I64|]. split; [reflexivity|]. split; [|exact Next]. cbn [o_paths].
        replace (S i - b) with (S (i - b)) by lia. rewrite seq_snoc, map_app. cbn.
        replace (b + (i - b)) with i by lia. now rewrite Here.
      * eexists. split; [reflexivity|]. right; left. split; [reflexivity|]. split; [reflexivity|].
        assert (forall q, In q ps -> agreeb (S i) (p_hash q) key = false) as No
          by (intros q I; apply (find_none _ _ Next q I)).
        split.
        -- cbn [o_paths]. replace (L - b) with ((i - b) + S n) by lia. rewrite seq_app, map_app. f_equal.
           replace (b + (i - b)) with i by lia. cbn [seq map]. rewrite Here. f_equal.
           clear -No. enough (forall j, i < j -> repeat None n = map (latest ps key) (seq j n)) as H by (apply H; lia).
           induction n as [|n IH]; intros j Hj; [reflexivity|]. cbn. rewrite <- IH by lia. f_equal.
           symmetry. unfold latest. destruct (find (diverges j key) ps) as [q|] eqn:F; [|reflexivity].
           apply find_some in F. destruct F as [I F]. unfold diverges in F. apply andb_true_iff in F.
           destruct F as [F _]. apply (agreeb_mono j (S i)) in F; [|lia]. rewrite (No q I) in F. discriminate.
        -- destruct (find (has_hash key) ps) as [q|] eqn:F; [|reflexivity]. apply find_some in F. destruct F as [I F].
           apply (has_hash_agree (S i)) in F. rewrite (No q I) in F. discriminate.
Qed.

Lemma copy_paths_spec (p : path) l : p_paths p = map l (seq 0 L) ->
  forall n i, i + n = L -> copy_paths p n i = Ok (map l (seq i n)).
Proof.
  intros P. induction n as [|n IH]; intros i H; [reflexivity|]. cbn [copy_paths].
  rewrite P, nth_error_map, (nth_error_nth' _ 0) by (rewrite seq_length; lia). rewrite seq_nth by lia.
  cbn [option_map unwrap bind plus]. rewrite IH by lia. reflexivity.
Qed.

Lemma step_ok b (p : path) : b <= L -> b <= 64 ->
  find (fun q => agreeb b (p_hash q) key) ps = Some p ->
  exists r, build_path_step debug p L key b = Ok r /\ step_post b p r.
Proof.
  intros HL H64 F. destruct (find_split _ _ _ F) as (newer & older & E & N & A).
  assert (wf (p :: older)) as (Sp & P & _) by (eapply wf_app; rewrite <- E; exact Hwf).
  assert (find (has_hash key) ps = Some p <-> p_hash p = key) as HH.
  { split.
    - intros G. apply find_some in G. destruct G as [_ G]. now apply N.eqb_eq in G.
    - intros G. rewrite E, find_skip by (apply (no_agree_no_hash b); exact N). cbn. unfold has_hash.
      now rewrite G, N.eqb_refl. }
  assert (forall i, p_hash p = key -> b <= i -> latest older (p_hash p) i = latest ps key i) as LL.
  { intros i G Hi. destruct (latest_below newer p older b E N A i Hi) as (_ & Same & _).
    - rewrite G. apply agreeb_refl.
    - symmetry. apply Same. now rewrite G. }
  assert (p_hash p = key ->
    copy_paths p (L - b) b = Ok (map (latest ps key) (seq b (L - b)))) as CP.
  { intros G. rewrite (copy_paths_spec p _ P) by lia. f_equal. apply map_ext_in. intros i I. apply in_seq in I.
    apply LL; [exact G|lia]. }
  assert (exists s, s <= b /\ (forall a, shr debug a b = Ok (N.shiftr a (N.of_nat s))) /\ (b < 64 -> s = b) /\ (b = 64 -> s = 0))
    as (s & Hs & Sh & Sb & S0).
  { unfold shr. destruct (Nat.ltb_spec b 64) as [G|G].
    - exists b. repeat split; auto. lia.
    - assert (b = 64) as -> by lia. destruct debug eqn:Db; [specialize (L_debug eq_refl); lia|].
      exists 0. repeat split; auto; lia. }
  unfold build_path_step. rewrite !Sh. cbn [bind].
  destruct (N.eq_dec (p_hash p) key) as [G|G].
  - rewrite G, N.eqb_refl, CP by exact G. eexists. split; [reflexivity|]. left. split; [reflexivity|].
    split; [reflexivity|]. now apply HH.
  - destruct (Nat.eq_dec b 64) as [B|B].
    { exfalso. apply G. apply small_agree; auto. apply (agreeb_mono b); [unfold w; lia|exact A]. }
    assert (s = b) as -> by (apply Sb; lia).
    destruct (N.eqb_spec (N.shiftr (p_hash p) (N.of_nat b)) (N.shiftr key (N.of_nat b))) as [X|X].
    { exfalso. apply G. exact (shiftr_eq b _ _ A X). }
    destruct (match_bits_post b newer p older E N A G (L - b) b) as (r & M & Po); [lia|lia|exact A|].
    rewrite Nat.sub_diag in M. exists r. split; [exact M|exact Po].
Qed.

Lemma rec_ok fuel b (p : path) : L - b < fuel -> b <= L -> b <= 64 ->
  find (fun q => agreeb b (p_hash q) key) ps = Some p ->
  build_path_rec debug fuel L key p (map (latest ps key) (seq 0 b))
    = Ok (option_map p_kvs (find (has_hash key) ps), map (latest ps key) (seq 0 L)).
Proof.
  revert b p. induction fuel as [|fuel IH]; intros b p HF HL H64 F; [lia|]. cbn [build_path_rec].
  rewrite map_length, seq_length.
  destruct (step_ok b p HL H64 F) as (r & St & Po). rewrite St. cbn [bind].
  assert (forall n, map (latest ps key) (seq 0 b) ++ map (latest ps key) (seq b n) = map (latest ps key) (seq 0 (b + n))) as J
    by (intros n; now rewrite seq_app, map_app).
  destruct Po as [(Kv & P & H)|[(Kv & Nx & P & H)|(Kv & i & q & Hi & H6 & Nx & P & H)]]; rewrite Kv, P, J.
  - replace (b + (L - b)) with L by lia. rewrite map_length, seq_length, Nat.eqb_refl. cbn [assert bind].
    now rewrite H.
  - rewrite Nx. replace (b + (L - b)) with L by lia. rewrite map_length, seq_length, Nat.eqb_refl. cbn [assert bind].
    now rewrite H.
  - rewrite Nx. replace (b + (S i - b)) with (S i) by lia. apply IH; [lia|lia|lia|exact H].
Qed.

End Step.

(** ** The map *)

Definition key_hash (k : K) : N := N.land (my_hash k) (N.ones (N.of_nat w)).

Lemma key_hash_small k : small (key_hash k).
Proof. unfold small, key_hash. rewrite N.land_ones. apply N.mod_lt. apply N.pow_nonzero. lia. Qed.

Definition kv_ok (p : path) : Prop :=
  NoDup (map fst (p_kvs p)) /\ forall k, In k (map fst (p_kvs p)) -> key_hash k = p_hash p.

(** What the newest path of the key's hash binds it to. *)
Definition stored (ps : list path) (k : K) : option V :=
  match find (has_hash (key_hash k)) ps with
  | Some p => assoc keqb k (p_kvs p)
  | None => None
  end.

Definition rep (h : history) (s : skiplist K V) : Prop :=
  exists ps, head s = hd_error ps /\ path_len s = L /\ wf ps /\ Forall kv_ok ps /\
    forall k, stored ps k = bound keqb h k.

Lemma keqb_refl k : keqb k k = true.
Proof. now apply keqb_spec. Qed.

Lemma sk_find_spec ps s k : head s = hd_error ps -> path_len s = L -> wf ps ->
  exists cp, sk_find my_hash debug s k =
    Ok (key_hash k, option_map p_kvs (find (has_hash (key_hash k)) ps), cp) /\
  (ps <> [] -> cp = map (latest ps (key_hash k)) (seq 0 L)) /\ (ps = [] -> cp = []).
Proof.
  intros H E W. unfold sk_find. rewrite E, make_mask_spec by exact L_pos. cbn [bind]. rewrite H.
  change (N.land (my_hash k) (N.ones (N.of_nat (Nat.min L 64)))) with (key_hash k).
  destruct ps as [|p ps]; cbn [hd_error].
  - exists []. split; [reflexivity|]. split; [congruence|reflexivity].
  - pose proof (rec_ok (p :: ps) W (key_hash k) (key_hash_small k) (L + 2) 0 p) as R.
    cbn [seq map] in R. rewrite R; [|lia|lia|lia|reflexivity]. cbn [bind].
    eexists. split; [reflexivity|]. split; [intros _; reflexivity|discriminate].
Qed.

Lemma assoc_none k l : ~ In k (map fst l) -> @assoc K V keqb k l = None.
Proof.
  induction l as [|[k0 o] l IH]; cbn; [reflexivity|]. intros H. destruct (keqb k k0) eqn:E.
  - apply keqb_spec in E. exfalso. apply H. left. now symmetry.
  - apply IH. intros I. apply H. now right.
Qed.

(** The loop of [ext] over the old pairs. *)
Lemma ext_fold k opv (l acc : list (K * option V)) oo f : NoDup (map fst l) ->
  exists l', fold_left (ext_pair keqb k opv) l (acc, oo, f) =
    (acc ++ l', if existsb (fun e => keqb k (fst e)) l then Some (assoc keqb k l) else oo,
     f || existsb (fun e => keqb k (fst e)) l) /\
  map fst l' = map fst l /\
  (forall k', assoc keqb k' l' =
    if keqb k' k then (if existsb (fun e => keqb k (fst e)) l then opv else None) else assoc keqb k' l).
Proof.
  revert acc oo f. induction l as [|[k0 o] l IH]; intros acc oo f D; cbn [fold_left existsb map fst].
  - exists []. rewrite app_nil_r, orb_false_r. split; [reflexivity|]. split; [reflexivity|].
    intros k'. cbn. now destruct (keqb k' k).
  - inversion D as [|? ? N D']; subst. cbn [ext_pair]. destruct (keqb k k0) eqn:E; cbn [orb].
    + apply keqb_spec in E. subst k0.
      destruct (IH (acc ++ [(k, opv)]) (Some o) true D') as (l' & F & M & As). rewrite F.
      assert (existsb (fun e => keqb k (fst e)) l = false) as X.
      { destruct (existsb _ l) eqn:X; [|reflexivity]. apply existsb_exists in X. destruct X as ([k1 o1] & I & X).
        apply keqb_spec in X. cbn in X. subst. exfalso. apply N. apply (in_map fst) in I. exact I. }
      rewrite X. exists ((k, opv) :: l'). rewrite <- app_assoc. cbn. rewrite keqb_refl, orb_true_r.
      split; [reflexivity|]. split; [now rewrite M|]. intros k'. destruct (keqb k' k) eqn:E'.
      * reflexivity.
      * rewrite As, E'. reflexivity.
    + destruct (IH (acc ++ [(k0, o)]) oo f D') as (l' & F & M & As). rewrite F.
      exists ((k0, o) :: l'). rewrite <- app_assoc. cbn. rewrite E. split; [reflexivity|]. split; [now rewrite M|].
      intros k'. destruct (keqb k' k0) eqn:E'.
      * apply keqb_spec in E'. subst k'. destruct (keqb k0 k) eqn:E2; [|reflexivity].
        apply keqb_spec in E2. subst. rewrite keqb_refl in E. discriminate.
      * apply As.
Qed.

Lemma sk_get_spec h s k : rep h s -> sk_get keqb my_hash debug s k = Ok (bound keqb h k).
Proof.
  intros (ps & H & E & W & _ & B). unfold sk_get.
  destruct (sk_find_spec ps s k H E W) as (cp & F & _). rewrite F. cbn [bind]. rewrite <- B. unfold stored.
  destruct (find _ ps); reflexivity.
Qed.

Lemma nodup_snoc {A} (l : list A) a : NoDup l -> ~ In a l -> NoDup (l ++ [a]).
Proof.
  intros D N. induction l as [|b l IH]; cbn; [constructor; auto; constructor|].
  inversion D; subst. constructor.
  - intros I. apply in_app_iff in I. destruct I as [I|[->|[]]]; [auto|]. apply N. now left.
  - apply IH; auto. intros I. apply N. now right.
Qed.

Lemma assoc_snoc k k' o (l : list (K * option V)) : ~ In k (map fst l) ->
  assoc keqb k' (l ++ [(k, o)]) = if keqb k' k then o else assoc keqb k' l.
Proof.
  induction l as [|[k0 o0] l IH]; cbn; intros N; [reflexivity|].
  destruct (keqb k' k0) eqn:E.
  - apply keqb_spec in E. subst. destruct (keqb k0 k) eqn:E2; [|reflexivity]. apply keqb_spec in E2.
    exfalso. apply N. now left.
  - apply IH. intros I. apply N. now right.
Qed.

Lemma sk_ext_spec h s k opv : rep h s ->
  exists s', sk_ext keqb my_hash debug s k opv = Ok (bound keqb h k, s') /\ rep ((k, opv) :: h) s'.
Proof.
  intros (ps & H & E & W & KV & B). unfold sk_ext.
  destruct (sk_find_spec ps s k H E W) as (cp & F & CP & CP0). rewrite F. cbn [bind]. clear F.
  assert (fill_empty cp L = map (latest ps (key_hash k)) (seq 0 L)) as Fill.
  { unfold fill_empty. destruct ps as [|p ps].
    - rewrite CP0 by reflexivity. cbn. rewrite Nat.sub_0_r. apply latest_nil.
    - rewrite CP by discriminate. rewrite map_length, seq_length, Nat.sub_diag. apply app_nil_r. }
  rewrite E.
  (* the new path and its pairs *)
  assert (exists new_kvs oo cp',
    match option_map p_kvs (find (has_hash (key_hash k)) ps) with
    | Some kvs =>
        let '(new_kvs, opv_old, found) := fold_left (ext_pair keqb k opv) kvs ([], None, false) in
        (if found then new_kvs else new_kvs ++ [(k, opv)], opv_old, cp)
    | None => ([(k, opv)], None, fill_empty cp L)
    end = (new_kvs, oo, cp') /\
    cp' = map (latest ps (key_hash k)) (seq 0 L) /\
    match oo with Some o => o | None => None end = bound keqb h k /\
    NoDup (map fst new_kvs) /\ (forall k', In k' (map fst new_kvs) -> key_hash k' = key_hash k) /\
    forall k', key_hash k' = key_hash k -> assoc keqb k' new_kvs = if keqb k' k then opv else bound keqb h k')
    as (new_kvs & oo & cp' & X & Ecp & Eold & ND & Hs & As).
  { pose proof (B k) as Bk. unfold stored in Bk.
    destruct (find (has_hash (key_hash k)) ps) as [p|] eqn:Fd; cbn [option_map].
    - assert (In p ps /\ p_hash p = key_hash k) as (Ip & Hp).
      { apply find_some in Fd. destruct Fd as [I X]. apply N.eqb_eq in X. auto. }
      rewrite Forall_forall in KV. destruct (KV p Ip) as (D & KH).
      destruct (ext_fold k opv (p_kvs p) [] None false D) as (l' & Fo & M & As). rewrite Fo. cbn [app orb].
      assert (ps <> []) as Ne by (intros ->; destruct Ip).
      assert (forall k', key_hash k' = key_hash k -> assoc keqb k' (p_kvs p) = bound keqb h k') as Bo.
      { intros k' Hk. rewrite <- B. unfold stored. rewrite Hk, Fd. reflexivity. }
      destruct (existsb (fun e => keqb k (fst e)) (p_kvs p)) eqn:Ex.
      + do 3 eexists. split; [reflexivity|]. split; [apply CP, Ne|]. split; [exact Bk|]. rewrite M.
        split; [exact D|]. split; [intros k' I; rewrite (KH k' I); exact Hp|].
        intros k' Hk. rewrite As. destruct (keqb k' k); [reflexivity|]. now apply Bo.
      + assert (~ In k (map fst l')) as Ni.
        { rewrite M. intros I. apply in_map_iff in I. destruct I as ([k1 o1] & Ek & I). cbn in Ek. subst k1.
          assert (existsb (fun e => keqb k (fst e)) (p_kvs p) = true) as Y; [|congruence].
          apply existsb_exists. exists (k, o1). split; [exact I|apply keqb_refl]. }
        do 3 eexists. split; [reflexivity|]. split; [apply CP, Ne|]. split.
        { rewrite <- Bk. symmetry. apply assoc_none. now rewrite <- M. }
        split; [rewrite map_app; apply nodup_snoc; [now rewrite M|exact Ni]|]. split.
        { intros k' I. rewrite map_app in I. apply in_app_iff in I. destruct I as [I|[<-|[]]]; [|reflexivity].
          rewrite M in I. rewrite (KH k' I). exact Hp. }
        intros k' Hk. rewrite assoc_snoc by exact Ni. destruct (keqb k' k) eqn:Ek; [reflexivity|].
        rewrite As, Ek. now apply Bo.
    - do 3 eexists. split; [reflexivity|]. split; [exact Fill|]. split; [exact Bk|]. cbn. split.
      { constructor; [intros []|constructor]. }
      split; [intros k' [<-|[]]; reflexivity|]. intros k' Hk. destruct (keqb k' k); [reflexivity|].
      rewrite <- B. unfold stored. now rewrite Hk, Fd. }
  rewrite X. eexists. split; [rewrite Eold; reflexivity|].
  exists (Path (key_hash k) new_kvs cp' :: ps). cbn [head hd_error path_len].
  split; [reflexivity|]. split; [reflexivity|]. split; [|split].
  - cbn [wf p_hash p_paths]. split; [apply key_hash_small|]. split; [exact Ecp|exact W].
  - constructor; [|exact KV]. split; [exact ND|exact Hs].
  - intros k'. unfold stored. cbn [find bound]. unfold has_hash at 1. cbn [p_hash].
    destruct (N.eqb_spec (key_hash k) (key_hash k')) as [Eh|Nh].
    + cbn [p_kvs]. apply As. now symmetry.
    + destruct (keqb k' k) eqn:Ek; [apply keqb_spec in Ek; subst; contradiction|]. apply B.
Qed.

Lemma rep_emp n : rep [] (sk_emp L n).
Proof.
  exists []. split; [reflexivity|]. split; [reflexivity|]. split; [exact I|]. split; [constructor|]. reflexivity.
Qed.

Lemma rep_archive h s n : rep h s -> rep h (sk_archive s n).
Proof. intros (ps & H). exists ps. exact H. Qed.

Lemma sk_step_spec h s op : rep h s ->
  exists s', sk_step keqb my_hash debug s op = Ok (fst (map_spec_step keqb h op), s') /\
    rep (snd (map_spec_step keqb h op)) s'.
Proof.
  intros R. destruct op as [k o|k v|k|k|n]; cbn [sk_step map_spec_step fst snd].
  - destruct (sk_ext_spec h s k o R) as (s' & E & R'). rewrite E. exists s'. auto.
  - unfold sk_put. destruct (sk_ext_spec h s k (Some v) R) as (s' & E & R'). rewrite E. exists s'. auto.
  - unfold sk_rem. destruct (sk_ext_spec h s k None R) as (s' & E & R'). rewrite E. exists s'. auto.
  - rewrite (sk_get_spec h s k R). exists s. auto.
  - exists (sk_archive s n). split; [reflexivity|]. now apply rep_archive.
Qed.

Lemma sk_run_spec h s (ops : list (map_op K V)) : rep h s -> sk_run keqb my_hash debug s ops = Ok (map_spec_run keqb h ops).
Proof.
  revert h s. induction ops as [|op ops IH]; intros h s R; [reflexivity|]. cbn [sk_run map_spec_run].
  destruct (sk_step_spec h s op R) as (s' & E & R'). rewrite E.
  destruct (map_spec_step keqb h op) as [r h'] eqn:M. cbn [bind fst snd] in *. rewrite (IH h' s' R'). reflexivity.
Qed.

Theorem skiplist_is_map n (ops : list (map_op K V)) :
  sk_run keqb my_hash debug (sk_emp L n) ops = Ok (map_spec_run keqb [] ops).
Proof. apply sk_run_spec, rep_emp. Qed.

End Proofs.

(** Length 0: the mask's assertion fails before anything else. *)
Lemma skiplist_length_zero {K V} keqb my_hash debug (s : skiplist K V) k o : path_len s = 0 ->
  sk_ext keqb my_hash debug s k o = Panic "assert len > 0" /\
  sk_get keqb my_hash debug s k = Panic "assert len > 0".
Proof.
  intros E. unfold sk_ext, sk_get, sk_find, make_mask. rewrite E. split; reflexivity.
Qed.
