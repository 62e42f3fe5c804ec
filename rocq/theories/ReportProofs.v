(** * Proofs about the reports of the experiments. *)

From Coq Require Import ZArith.
From Verif Require Import Base BaseFacts EvalModel ReportModel ReportSpec.

Lemma spent_S v k x : nth_error v k = Some x -> spent v (S k) = (spent v k + x)%Z.
Proof.
  unfold spent. revert k. induction v as [|y v IH]; intros k H; [destruct k; discriminate|].
  destruct k as [|k]; simpl in *; [injection H as ->; lia|]. rewrite (IH k H). simpl. destruct v; simpl; lia.
Qed.

Lemma nth_has {A} (v : list A) i : i < length v -> exists x, nth_error v i = Some x.
Proof. intros H. destruct (nth_error v i) eqn:N; [eauto|]. apply nth_error_None in N. lia. Qed.

Lemma firstn_snoc {A} (v : list A) i x : nth_error v i = Some x -> firstn (S i) v = firstn i v ++ [x].
Proof.
  revert i. induction v as [|y v IH]; intros i H; [destruct i; discriminate|].
  destruct i as [|i]; simpl in *; [now injection H as ->|]. now rewrite (IH i H).
Qed.

Lemma gather_loop (nc ac : list Z) m : forall i, i + m <= length nc -> i + m <= length ac ->
  times m (fun st : nat * list Z * list Z =>
       let '(i, native, adapton) := st in
       do nc <- time_at nc i;
       do ac <- time_at ac i;
       Ok (S i, native ++ [nc], adapton ++ [ac])) (i, firstn i nc, firstn i ac) =
  Ok (i + m, firstn (i + m) nc, firstn (i + m) ac).
Proof.
  induction m as [|m IH]; intros i Hn Ha.
  - simpl. now rewrite Nat.add_0_r.
  - cbn [times]. destruct (nth_has nc i) as (x & X); [lia|]. destruct (nth_has ac i) as (y & Y); [lia|].
    unfold time_at at 1 2. rewrite X, Y. cbn [unwrap bind].
    rewrite <- (firstn_snoc _ _ _ X), <- (firstn_snoc _ _ _ Y), IH by lia.
    replace (i + S m) with (S i + m) by lia. reflexivity.
Qed.

Lemma gather_ok changes nc ac : changes < length nc -> changes < length ac ->
  gather changes nc ac = Ok (firstn (S changes) nc, firstn (S changes) ac).
Proof.
  intros Hn Ha. unfold gather. pose proof (gather_loop nc ac (S changes) 0 ltac:(lia) ltac:(lia)) as H.
  cbn [firstn] in H. rewrite H. reflexivity.
Qed.

Lemma spent_prefix v k m : k <= m -> spent (firstn m v) k = spent v k.
Proof. intros H. unfold spent. rewrite firstn_firstn. now replace (Nat.min k m) with k by lia. Qed.
Lemma spent_app v w k : k <= length v -> spent (v ++ w) k = spent v k.
Proof. intros H. unfold spent. rewrite firstn_app. replace (k - length v) with 0 by lia. simpl. now rewrite app_nil_r. Qed.

Lemma overtakes_app v w v' w' c : S c <= length v -> S c <= length w ->
  (overtakes (v ++ v') (w ++ w') c <-> overtakes v w c).
Proof. intros V W. unfold overtakes. rewrite !spent_app by lia. reflexivity. Qed.
Lemma overtakes_prefix v w m c : c <= m -> (overtakes (firstn (S m) v) (firstn (S m) w) c <-> overtakes v w c).
Proof. intros H. unfold overtakes. rewrite !spent_prefix by lia. reflexivity. Qed.

Lemma spent_snoc v x k : k = S (length v) -> spent (v ++ [x]) k = (spent v (length v) + x)%Z.
Proof.
  intros ->. rewrite (spent_S (v ++ [x]) (length v) x).
  - now rewrite spent_app by lia.
  - rewrite nth_error_app2 by lia. now rewrite Nat.sub_diag.
Qed.

Lemma last_step v w n a c k : length v = S c -> length w = S c -> last_overtake v w c k ->
  last_overtake (v ++ [n]) (w ++ [a]) (S c)
    (if (spent v (S c) <? spent w (S c))%Z && (spent w (S c) + a <=? spent v (S c) + n)%Z then c + 1 else k).
Proof.
  intros V W (K & P & Q).
  assert (St : overtakes (v ++ [n]) (w ++ [a]) (S c) <->
    (spent v (S c) < spent w (S c) /\ spent w (S c) + a <= spent v (S c) + n)%Z).
  { unfold overtakes. rewrite !spent_app by lia.
    rewrite (spent_snoc v n) by lia. rewrite (spent_snoc w a) by lia. rewrite V, W. intuition lia. }
  destruct ((spent v (S c) <? spent w (S c))%Z && (spent w (S c) + a <=? spent v (S c) + n)%Z) eqn:C.
  - apply andb_prop in C as [C1 C2]. apply Z.ltb_lt in C1. apply Z.leb_le in C2.
    rewrite Nat.add_1_r. split; [lia|]. split; [right; now apply St|]. intros; lia.
  - split; [lia|]. split.
    + destruct P as [P|P]; [now left|]. right. destruct (Nat.eq_dec k 0) as [Z|Z]; [subst; destruct P; lia|].
      exact (proj2 (overtakes_app v w [n] [a] k ltac:(lia) ltac:(lia)) P).
    + intros c' H1 H2 O. destruct (Nat.eq_dec c' (S c)) as [->|Ne].
      * apply St in O as [O1 O2]. apply Bool.andb_false_iff in C as [C|C].
        -- apply Z.ltb_ge in C. lia.
        -- apply Z.leb_gt in C. lia.
      * apply (Q c'); [lia|lia|]. exact (proj1 (overtakes_app v w [n] [a] c' ltac:(lia) ltac:(lia)) O).
Qed.

Lemma cross_fold ns : forall as_ v w c k, length ns = length as_ -> length v = S c -> length w = S c ->
  last_overtake v w c k ->
  exists n a k', fold_left cross_step (combine (seq c (length (combine ns as_))) (combine ns as_))
      (spent v (S c), spent w (S c), k) = (n, a, k') /\
    last_overtake (v ++ ns) (w ++ as_) (c + length ns) k'.
Proof.
  induction ns as [|n ns IH]; intros as_ v w c k L V W H; destruct as_ as [|a as_]; try discriminate L.
  - simpl. rewrite !app_nil_r, Nat.add_0_r. eauto.
  - cbn [combine length seq fold_left]. unfold cross_step at 2.
    pose proof (last_step v w n a c k V W H) as H'.
    injection L as L.
    assert (V' : length (v ++ [n]) = S (S c)) by (rewrite app_length; simpl; lia).
    assert (W' : length (w ++ [a]) = S (S c)) by (rewrite app_length; simpl; lia).
    destruct (IH as_ (v ++ [n]) (w ++ [a]) (S c) _ L V' W' H') as (n' & a' & k' & F & Z).
    rewrite (spent_snoc v n) in F by lia. rewrite (spent_snoc w a) in F by lia. rewrite V, W in F.
    exists n', a', k'. split; [exact F|].
    rewrite <- !app_assoc in Z. simpl in Z. now rewrite Nat.add_succ_r.
Qed.

Lemma sum_left l : forall a, fold_left Z.add l a = (a + fold_right Z.add 0 l)%Z.
Proof. induction l as [|x l IH]; intros a; simpl; [lia|]. rewrite IH. lia. Qed.

Theorem report_ok changes nc ac : changes < length nc -> changes < length ac ->
  exists r, report_of changes nc ac = Ok r /\
    Some (native_init r) = nth_error nc 0 /\ Some (adapton_init r) = nth_error ac 0 /\
    (adapton_init r + update_sum r = spent ac (S changes))%Z /\ update_len r = changes /\
    last_overtake nc ac changes (crossover r).
Proof.
  intros Hn Ha. unfold report_of. rewrite gather_ok by assumption. cbn [bind].
  destruct nc as [|n0 nc]; [simpl in Hn; lia|]. destruct ac as [|a0 ac]; [simpl in Ha; lia|].
  simpl in Hn, Ha. cbn [firstn time_at nth_error unwrap bind tl].
  assert (Ln : length (firstn changes nc) = changes) by (rewrite firstn_length; lia).
  assert (La : length (firstn changes ac) = changes) by (rewrite firstn_length; lia).
  destruct (cross_fold (firstn changes nc) (firstn changes ac) [n0] [a0] 0 0) as (n & a & k & F & L);
    try reflexivity; [congruence| |].
  { split; [lia|]. split; [now left|]. intros; lia. }
  unfold spent in F. cbn [firstn fold_right] in F. rewrite !Z.add_0_r in F.
  unfold time_at. cbn [nth_error unwrap bind]. rewrite F.
  eexists. split; [reflexivity|]. cbn [native_init adapton_init update_sum update_len crossover].
  split; [reflexivity|]. split; [reflexivity|].
  split; [rewrite sum_left; unfold spent; simpl; lia|]. split; [exact La|].
  rewrite Ln in L. simpl in L. destruct L as (K & P & Q). split; [exact K|].
  change (n0 :: firstn changes nc) with (firstn (S changes) (n0 :: nc)) in *.
  change (a0 :: firstn changes ac) with (firstn (S changes) (a0 :: ac)) in *. split.
  - destruct P as [P|P]; [now left|right]. exact (proj1 (overtakes_prefix _ _ changes k K) P).
  - intros c H1 H2 O. apply (Q c H1 H2). exact (proj2 (overtakes_prefix _ _ changes c H2) O).
Qed.

(** Too few times. *)
Lemma gather_short (nc ac : list Z) m : forall i ns as_, length nc < i + m \/ length ac < i + m -> 
  i <= length nc -> i <= length ac ->
  times m (fun st : nat * list Z * list Z =>
       let '(i, native, adapton) := st in
       do nc <- time_at nc i;
       do ac <- time_at ac i;
       Ok (S i, native ++ [nc], adapton ++ [ac])) (i, ns, as_) = Panic "index out of bounds".
Proof.
  induction m as [|m IH]; intros i ns as_ H Hn Ha; [lia|]. cbn [times]. unfold time_at at 1 2.
  destruct (nth_error nc i) as [x|] eqn:X; [|reflexivity]. cbn [unwrap bind].
  destruct (nth_error ac i) as [y|] eqn:Y; [|reflexivity]. cbn [unwrap bind].
  apply IH; [lia| |].
  - assert (N : nth_error nc i <> None) by congruence. apply nth_error_Some in N. lia.
  - assert (N : nth_error ac i <> None) by congruence. apply nth_error_Some in N. lia.
Qed.

(** Being ahead at the end means being ahead since the reported change. *)
Lemma ahead_since nc ac m k : last_overtake nc ac m k ->
  (spent ac (S m) <= spent nc (S m))%Z ->
  forall c, k <= c -> c <= m -> (spent ac (S c) <= spent nc (S c))%Z.
Proof.
  intros (K & P & Q) E c H1 H2. remember (m - c) as d eqn:D. revert c H1 H2 D.
  induction d as [|d IH]; intros c H1 H2 D; [now replace c with m by lia|].
  specialize (IH (S c) ltac:(lia) ltac:(lia) ltac:(lia)).
  destruct (Z_lt_ge_dec (spent nc (S c)) (spent ac (S c))) as [L|G]; [|lia].
  elim (Q (S c)); [lia|lia|]. repeat split; [lia|exact L|exact IH].
Qed.
Lemma behind_all nc ac m : last_overtake nc ac m 0 -> (spent nc 1 < spent ac 1)%Z ->
  forall c, c <= m -> (spent nc (S c) < spent ac (S c))%Z.
Proof.
  intros (_ & _ & Q) E. induction c as [|c IH]; intros H; [exact E|].
  specialize (IH ltac:(lia)).
  destruct (Z_lt_ge_dec (spent nc (S (S c))) (spent ac (S (S c)))) as [L|G]; [exact L|].
  elim (Q (S c)); [lia|lia|]. repeat split; [lia|exact IH|lia].
Qed.

(** ** Rows *)
Lemma rows_loop edits comps m : forall i rows, i + m <= length edits -> i + m <= length comps ->
  times m (fun st : nat * Z * Z * list (nat * Z * Z) =>
       let '(i, e, r, rows) := st in
       do de <- time_at edits i;
       let e := (e + de)%Z in
       do dr <- time_at comps i;
       let r := (r + dr)%Z in
       Ok (S i, e, r, rows ++ [(i, e, r)])) (i, spent edits i, spent comps i, rows) =
  Ok (i + m, spent edits (i + m), spent comps (i + m),
      rows ++ map (fun j => (j, spent edits (S j), spent comps (S j))) (seq i m)).
Proof.
  induction m as [|m IH]; intros i rows He Hc.
  - simpl. now rewrite Nat.add_0_r, app_nil_r.
  - cbn [times]. destruct (nth_has edits i) as (x & X); [lia|]. destruct (nth_has comps i) as (y & Y); [lia|].
    unfold time_at at 1 2. rewrite X, Y. cbn [unwrap bind].
    rewrite <- (spent_S _ _ _ X), <- (spent_S _ _ _ Y), IH by lia.
    replace (i + S m) with (S i + m) by lia. rewrite <- app_assoc. reflexivity.
Qed.

Theorem rows_ok changes edits comps : changes <= length edits -> changes <= length comps ->
  report_rows changes edits comps = Ok (map (fun j => (j, spent edits (S j), spent comps (S j))) (seq 0 changes)).
Proof.
  intros He Hc. unfold report_rows.
  pose proof (rows_loop edits comps changes 0 [] ltac:(lia) ltac:(lia)) as H. cbn in H. rewrite H. reflexivity.
Qed.
Lemma rows_local changes edits comps edits' comps' : changes <= length edits -> changes <= length comps ->
  report_rows changes (firstn changes edits ++ edits') (firstn changes comps ++ comps') = report_rows changes edits comps.
Proof.
  intros He Hc. rewrite !rows_ok; try assumption; try (rewrite app_length, firstn_length; lia).
  f_equal. apply map_ext_in. intros j Hj. apply in_seq in Hj.
  rewrite !spent_app by (rewrite firstn_length; lia). rewrite !spent_prefix by lia. reflexivity.
Qed.

Lemma report_short changes nc ac : length nc <= changes \/ length ac <= changes ->
  report_of changes nc ac = Panic "index out of bounds".
Proof.
  intros H. unfold report_of, gather. rewrite (gather_short nc ac (S changes) 0 [] []); [reflexivity|lia|lia|lia].
Qed.

Lemma report_since changes nc ac r : report_of changes nc ac = Ok r ->
  (spent ac (S changes) <= spent nc (S changes))%Z ->
  forall c, crossover r <= c -> c <= changes -> (spent ac (S c) <= spent nc (S c))%Z.
Proof.
  intros R E. destruct (le_lt_dec (length nc) changes) as [S|S]; [rewrite report_short in R by lia; discriminate|].
  destruct (le_lt_dec (length ac) changes) as [S'|S']; [rewrite report_short in R by lia; discriminate|].
  destruct (report_ok changes nc ac S S') as (r' & R' & _ & _ & _ & _ & L). rewrite R in R'. injection R' as <-.
  exact (ahead_since nc ac changes _ L E).
Qed.
Lemma report_behind changes nc ac r : report_of changes nc ac = Ok r -> crossover r = 0 ->
  (native_init r < adapton_init r)%Z ->
  forall c, c <= changes -> (spent nc (S c) < spent ac (S c))%Z.
Proof.
  intros R Z0 E. destruct (le_lt_dec (length nc) changes) as [S|S]; [rewrite report_short in R by lia; discriminate|].
  destruct (le_lt_dec (length ac) changes) as [S'|S']; [rewrite report_short in R by lia; discriminate|].
  destruct (report_ok changes nc ac S S') as (r' & R' & N & A & _ & _ & L). rewrite R in R'. injection R' as <-.
  rewrite Z0 in L. apply (behind_all nc ac changes L).
  destruct nc as [|n0 nc]; [discriminate N|]. destruct ac as [|a0 ac]; [discriminate A|].
  injection N as <-. injection A as <-. unfold spent. simpl. lia.
Qed.
