(** * Proofs about experiments. *)

From Verif Require Import Base BaseFacts Spec SpecRaz RazMetaModel RazModel RazView RazScripts StackProofs RazFrom LevelGenModel LevelGenProofs EvalModel EvalSpec EvalProofs
  EvalScripts EvalHistory ActionModel ActionSpec.

Section Loop.
Context {D O S : Type}.

Lemma last_cons (l : list D) : forall a b, last (a :: l) b = last l a.
Proof. induction l as [|x l IH]; intros a b; [reflexivity|]. change (last (a :: x :: l) b) with (last (x :: l) b). rewrite !IH. reflexivity. Qed.

Lemma times_goes (edit : editor D S) (comp : computor O D S) n : forall d eds outs s d' eds' outs' s',
  times n (fun st : D * list D * list O * S =>
       let '(testdata, edits, computes, rng) := st in
       do ' (dat, rng) <- edit testdata rng;
       do ' (o, rng) <- comp dat rng;
       Ok (dat, edits ++ [dat], computes ++ [o], rng)) (d, eds, outs, s) = Ok (d', eds', outs', s') <->
  exists ds os, goes edit comp d s ds os s' /\ length os = n /\ d' = last ds d /\ eds' = eds ++ ds /\ outs' = outs ++ os.
Proof.
  induction n as [|n IH]; intros d eds outs s d' eds' outs' s'; cbn [times].
  - split.
    + intros H. inv H. exists [], []. rewrite !app_nil_r. repeat split; auto. constructor.
    + intros (ds & os & Go & L & -> & -> & ->). destruct os; [|discriminate]. inversion Go; subst. rewrite !app_nil_r. reflexivity.
  - split.
    + intros H. apply bind_Ok in H. destruct H as ([[[d1 e1] o1] s1] & B & H).
      apply bind_Ok in B. destruct B as ([d2 s2] & B1 & B). apply bind_Ok in B. destruct B as ([o s3] & B2 & B). inv B.
      apply IH in H. destruct H as (ds & os & Go & L & -> & -> & ->).
      exists (d1 :: ds), (o :: os). split; [econstructor; eassumption|]. split; [simpl; congruence|].
      rewrite last_cons. split; [reflexivity|split; now rewrite <- app_assoc].
    + intros (ds & os & Go & L & -> & -> & ->). inversion Go; subst; [discriminate|].
      rewrite H. cbn [bind]. rewrite H0. cbn [bind]. apply IH. exists ds0, os0.
      split; [assumption|]. split; [simpl in L; congruence|].
      rewrite last_cons. split; [reflexivity|split; now rewrite <- app_assoc].
Qed.

Lemma test_seq_goes (init : creator D S) (edit : editor D S) (comp : computor O D S) changes rng eds outs s' :
  test_seq init edit comp changes rng = Ok (eds, outs, s') <->
  exists d s o s1 ds os, init rng = Ok (d, s) /\ comp d s = Ok (o, s1) /\ goes edit comp d s1 ds os s' /\
    length os = N.to_nat changes /\ eds = d :: ds /\ outs = o :: os.
Proof.
  unfold test_seq. split.
  - intros H. apply bind_Ok in H. destruct H as ([d s] & I & H). apply bind_Ok in H. destruct H as ([o s1] & C & H).
    apply bind_Ok in H. destruct H as ([[[d1 e1] o1] s2] & T & H). inv H. apply times_goes in T.
    destruct T as (ds & os & Go & L & _ & -> & ->). exists d, s, o, s1, ds, os. auto 10.
  - intros (d & s & o & s1 & ds & os & I & C & Go & L & -> & ->). rewrite I. cbn [bind]. rewrite C. cbn [bind].
    rewrite (proj2 (times_goes edit comp (N.to_nat changes) d [d] [o] s1 (last ds d) (d :: ds) (o :: os) s')); [reflexivity|].
    exists ds, os. auto 10.
Qed.

Lemma goes_lengths (edit : editor D S) (comp : computor O D S) d s ds os s' : goes edit comp d s ds os s' -> length ds = length os.
Proof. induction 1; simpl; congruence. Qed.
End Loop.

Section IRaz.
Context {E G S : Type} {CG : Coord E G} {WS : WordRng S}.
Notation eval := (eval_raz E count G).

(** One edit: what it puts where, and the bounds after it. *)
Lemma hop_step free dg ng o (ev : eval) xs g (rng : S) t :
  (1 <= dg)%N -> (1 <= ng)%N -> (ng * dg < usize_mod)%N ->
  harness free ev xs g dg ng -> ev_tree ev = Some t ->
  (N.of_nat (length xs) < usize_mod)%N -> (ev_counter ev + hop_batch o < usize_max)%N ->
  (ev_names ev + hop_batch o / (ng * dg) + 1 < usize_mod)%N ->
  (xs <> [] \/ exists b, o = HAppend b) ->
  exists ev' rng' xs' g' t' p q g0,
    ev_hop ev rng o = Ok (ev', rng') /\ plain_hop gen_elt gen_usize (xs, g) o = Some (xs', g') /\
    harness free ev' xs' g' dg ng /\ ev_tree ev' = Some t' /\
    ev_counter ev' = (ev_counter ev + hop_batch o)%N /\
    ev_names ev' = (ev_names ev + hop_batch o / (ng * dg) + 1)%N /\
    N.of_nat (length xs') = (N.of_nat (length xs) + hop_batch o)%N /\
    contents t = p ++ q /\
    contents t' = p ++ seam (batch_atoms dg ng (nth_level rng) (ev_names ev) (ev_counter ev)
                               (drawn gen_elt (N.to_nat (hop_batch o)) g0)) q ++ q.
Proof.
  intros D Ng Ov H T Lx Hc Hn Ne. destruct o as [b|b]; cbn [hop_batch ev_hop plain_hop] in *.
  - destruct (append_spec free ev xs g dg ng b rng H D Ng Ov Hc Hn Lx t T) as (t' & ev' & Ed & T' & Cc & Cn & Ct & H').
    exists ev'. eexists. do 2 eexists. exists t', (contents t), [], g. split; [exact Ed|]. split; [reflexivity|].
    split; [exact H'|]. split; [exact T'|]. split; [exact Cc|]. split; [exact Cn|].
    split; [rewrite app_length, drawn_length; lia|]. split; [now rewrite app_nil_r|].
    rewrite app_nil_r. exact Ct.
  - destruct Ne as [Ne|[b' X]]; [|discriminate]. destruct xs as [|x xs]; [congruence|].
    destruct (insert_spec free ev (x :: xs) g dg ng b rng H D Ng Ov Hc Hn ltac:(discriminate) Lx t T)
      as (t' & ev' & Ed & T' & Cc & Cn & Ct & H').
    destruct (gen_usize g) as [r g1]. cbn [fst snd] in *.
    set (loc := N.to_nat (r mod N.of_nat (length (x :: xs)))) in *.
    exists ev'. eexists. do 2 eexists. exists t', (fst (split_count loc (contents t))), (snd (split_count loc (contents t))), g1.
    split; [exact Ed|]. split; [reflexivity|]. split; [exact H'|]. split; [exact T'|]. split; [exact Cc|]. split; [exact Cn|].
    split.
    { pose proof (firstn_skipn loc (x :: xs)) as FS. apply (f_equal (@length E)) in FS. rewrite app_length in FS.
      rewrite !app_length, drawn_length. lia. }
    split; [symmetry; apply split_count_join|]. now destruct (split_count loc (contents t)).
Qed.

Lemma level_small w : (gen_branch_level w <= 64)%N.
Proof.
  assert (X : gen_branch_level w = gen_branch_level (w mod 2 ^ 64)).
  { unfold gen_branch_level, shl1. f_equal. rewrite N.mul_mod_idemp_r by discriminate. reflexivity. }
  rewrite X. apply gen_level_range. apply N.mod_lt. discriminate.
Qed.
Lemma levels_app (P : level -> Prop) (a b : list (atom E level)) : levels_in P (a ++ b) <-> levels_in P a /\ levels_in P b.
Proof. unfold levels_in. rewrite marks_app. apply Forall_app. Qed.
Lemma marked_levels dg ng lev nm xs : forall k, (forall j, (lev j <= 64)%N) ->
  levels_in (fun l => (l <= 64)%N) (@marked E dg ng lev nm k xs).
Proof.
  induction xs as [|x xs IH]; intros k L; [constructor|]. rewrite marked_cons.
  change (levels_in (fun l => (l <= 64)%N) ((if ((k + 1) mod dg =? 0)%N
       then [Mark (lev ((k + 1) / dg))%N
               (if ((k + 1) mod (ng * dg) =? 0)%N then point_name (Some (NNum (nm ((k + 1) / (ng * dg))%N))) else None) : atom E level]
       else []) ++ marked dg ng lev nm (k + 1) xs)).
  apply levels_app. split; [|apply IH; exact L].
  destruct ((k + 1) mod dg =? 0)%N; constructor; [apply L|constructor].
Qed.
Lemma seam_levels P (new q : list (atom E level)) : levels_in P new -> levels_in P (seam new q).
Proof.
  intros H. unfold seam. destruct (is_elt q); [exact H|]. destruct (strip_cases new) as [->|(m & n & X)]; [exact H|].
  rewrite X in H. now apply levels_app in H.
Qed.
Lemma batch_levels dg ng (rng : S) nm c xs : levels_in (fun l => (l <= 64)%N) (@batch_atoms E dg ng (nth_level rng) nm c xs).
Proof. apply marked_levels. intros j. apply level_small. Qed.

Definition low (ev : eval) : Prop := forall t, ev_tree ev = Some t -> levels_in (fun l => (l <= 64)%N) (contents t).

Lemma drawn_prefix (g : G) a b : a <= b -> exists more, drawn (gen_elt (E := E)) b g = drawn gen_elt a g ++ more.
Proof.
  intros H. unfold drawn. replace b with (a + (b - a)) by lia. rewrite seq_app, map_app. eauto.
Qed.
Lemma drawn_all (Q : E -> Prop) n (g : G) : (forall g, Q (fst (gen_elt g))) -> Forall Q (drawn gen_elt n g).
Proof. intros H. unfold drawn. apply Forall_map, Forall_forall. intros i _. apply H. Qed.
Lemma plain_hop_all (Q : E -> Prop) o xs (g : G) xs' g' : (forall g, Q (fst (gen_elt g))) -> Forall Q xs ->
  plain_hop gen_elt gen_usize (xs, g) o = Some (xs', g') -> Forall Q xs'.
Proof.
  intros H F. destruct o as [b|b]; cbn [plain_hop].
  - intros X. inv X. apply Forall_app. split; [exact F|]. now apply drawn_all.
  - destruct xs as [|x xs]; [discriminate|]. destruct (gen_usize g) as [r g1]. set (loc := N.to_nat _). intros X. inv X.
    rewrite <- (firstn_skipn loc (x :: xs)) in F. apply Forall_app in F. destruct F as [F1 F2].
    apply Forall_app. split; [exact F1|]. apply Forall_app. split; [now apply drawn_all|exact F2].
Qed.

Lemma hop_total_repeat o n : hop_total (repeat o n) = (N.of_nat n * hop_batch o)%N.
Proof.
  induction n as [|n IHn]; [reflexivity|].
  cbn [repeat hop_total fold_right]. fold (hop_total (repeat o n)). rewrite IHn. lia.
Qed.
Lemma hop_names_repeat dg ng o n : hop_names dg ng (repeat o n) = (N.of_nat n * (hop_batch o / (ng * dg) + 1))%N.
Proof.
  induction n as [|n IHn]; [reflexivity|].
  cbn [repeat hop_names fold_right]. fold (hop_names dg ng (repeat o n)). rewrite IHn. lia.
Qed.
Lemma plain_hops_length o n : forall (st st' : list E * G), plain_hops gen_elt gen_usize st (repeat o n) = Some st' ->
  N.of_nat (length (fst st')) = (N.of_nat (length (fst st)) + N.of_nat n * hop_batch o)%N.
Proof.
  induction n as [|n IH]; intros st st'; cbn [repeat plain_hops].
  - intros X. inv X. lia.
  - destruct (plain_hop gen_elt gen_usize st o) as [st1|] eqn:X; [|discriminate]. intros Y. rewrite (IH _ _ Y).
    enough (L : length (fst st1) = length (fst st) + N.to_nat (hop_batch o)) by (rewrite L; lia).
    destruct st as [xs g]. destruct o as [b|b]; cbn [plain_hop] in X.
    + inv X. cbn [fst hop_batch]. now rewrite app_length, drawn_length.
    + destruct xs as [|x xs]; [discriminate|]. destruct (gen_usize g) as [r g1]. set (loc := N.to_nat _) in X. inv X. cbn [fst hop_batch].
      pose proof (f_equal (@length E) (firstn_skipn loc (x :: xs))) as L. rewrite app_length in L.
      rewrite !app_length, drawn_length. lia.
Qed.
Lemma goes_harness {O} free dg ng o (Q : E -> Prop) (comp : computor O eval S) (P : list E -> O -> Prop) :
  (1 <= dg)%N -> (1 <= ng)%N -> (ng * dg < usize_mod)%N ->
  (forall g : G, Q (fst (gen_elt g))) ->
  (forall ev xs g, harness free ev xs g dg ng -> low ev -> Forall Q xs -> exists x, (forall r, comp ev r = Ok (x, r)) /\ P xs x) ->
  forall n ev xs g (rng : S), harness free ev xs g dg ng -> low ev -> Forall Q xs ->
  (N.of_nat (length xs) + hop_total (repeat o n) < usize_max)%N ->
  (ev_counter ev + hop_total (repeat o n) < usize_max)%N ->
  (ev_names ev + hop_names dg ng (repeat o n) < usize_mod)%N ->
  (xs <> [] \/ exists b, o = HAppend b) ->
  exists ds os rng', goes (iraz_editor o) comp ev rng ds os rng' /\ length os = n /\
    forall i x, nth_error os i = Some x -> exists xs' g',
      plain_hops gen_elt gen_usize (xs, g) (repeat o (Datatypes.S i)) = Some (xs', g') /\ P xs' x.
Proof.
  intros D Ng Ov Qg C. induction n as [|n IH]; intros ev xs g rng H Lw Qx Hl Hc Hn Ne.
  { exists [], [], rng. split; [constructor|]. split; [reflexivity|]. intros [|i] x; discriminate. }
  cbn [repeat hop_total hop_names fold_right] in Hl, Hc, Hn.
  fold (hop_total (repeat o n)) in *. fold (hop_names dg ng (repeat o n)) in *.
  pose proof H as (t & T & _). unfold usize_max, usize_mod in *.
  destruct (hop_step free dg ng o ev xs g rng t D Ng Ov H T ltac:(unfold usize_mod; lia) ltac:(unfold usize_max; lia)
    ltac:(unfold usize_mod; lia) Ne)
    as (ev' & rng1 & xs' & g' & t' & p & q & g0 & Ed & Pl & H' & T' & Cc & Cn & Lx & Ct & Ct').
  assert (Lw' : low ev').
  { intros u U. rewrite T' in U. injection U as <-. rewrite Ct'. specialize (Lw t T). rewrite Ct in Lw.
    apply levels_app in Lw. destruct Lw as [L1 L2]. apply levels_app. split; [exact L1|]. apply levels_app. split; [|exact L2].
    apply seam_levels, batch_levels. }
  pose proof (plain_hop_all Q o xs g xs' g' Qg Qx Pl) as Qx'.
  destruct (C ev' xs' g' H' Lw' Qx') as (x & Cx & Px).
  destruct (IH ev' xs' g' rng1 H' Lw' Qx') as (ds & os & rng' & Go & L & An);
    [rewrite Lx; lia|rewrite Cc; lia|rewrite Cn; lia| |].
  { destruct Ne as [Ne|Ap]; [left|right; exact Ap]. intros X. subst xs'. apply Ne. destruct xs; [reflexivity|]. cbn [length] in Lx. lia. }
  exists (ev' :: ds), (x :: os), rng'. split.
  { econstructor; [destruct o; exact Ed|apply Cx|exact Go]. }
  split; [simpl; congruence|]. intros [|i] y N1; cbn [nth_error] in N1.
  - injection N1 as <-. exists xs', g'. cbn [repeat plain_hops]. rewrite Pl. auto.
  - destruct (An i y N1) as (xs2 & g2 & X & Y). exists xs2, g2. split; [|exact Y].
    change (repeat o (Datatypes.S (Datatypes.S i))) with (o :: repeat o (Datatypes.S i)). cbn [plain_hops]. now rewrite Pl.
Qed.

Lemma experiment {O} free (size dg ng : N) o (Q : E -> Prop) (comp : computor O eval S) (P : list E -> O -> Prop) changes (coord : G) (rng : S) :
  (1 <= dg)%N -> (1 <= ng)%N -> (ng * dg < usize_mod)%N ->
  (forall g : G, Q (fst (gen_elt g))) ->
  (forall ev xs g, harness free ev xs g dg ng -> low ev -> Forall Q xs -> exists x, (forall r, comp ev r = Ok (x, r)) /\ P xs x) ->
  (size + changes * hop_batch o < usize_max)%N ->
  (size / (ng * dg) + changes * (hop_batch o / (ng * dg) + 1) < usize_mod)%N ->
  (1 <= size)%N \/ (exists b, o = HAppend b) ->
  exists ds os rng',
    test_seq (incremental_init ev_inc_init size dg ng coord) (iraz_editor o) comp changes rng
      = Ok (ds, os, rng') /\
    length os = Datatypes.S (N.to_nat changes) /\
    forall i x, nth_error os i = Some x -> exists xs g,
      edited gen_elt gen_usize size coord o i = Some (xs, g) /\
      N.of_nat (length xs) = (size + N.of_nat i * hop_batch o)%N /\ P xs x.
Proof.
  intros D Ng Ov Qg C Ht Hn Ne. unfold usize_max in Ht.
  destruct (inc_init_spec (RM := count_meta E) free size dg ng coord rng D Ng Ov ltac:(unfold usize_mod; lia)) as (t & I & R & Ct).
  destruct (init_harness (RM := count_meta E) free size dg ng coord rng D Ng Ov ltac:(unfold usize_mod; lia))
    as (ev & rng1 & I' & Cc & Cn & H).
  rewrite I in I'. injection I' as <- <-.
  set (ev := EvalRaz _ _ _ _ _ _) in *. set (rng1 := state_after next_word _ _) in *.
  assert (Lw : low ev).
  { intros u U. injection U as <-. rewrite Ct. apply (seam_levels _ _ []), batch_levels. }
  pose proof (hop_total_repeat o (N.to_nat changes)) as Tot. rewrite N2Nat.id in Tot.
  pose proof (hop_names_repeat dg ng o (N.to_nat changes)) as Nam. rewrite N2Nat.id in Nam.
  pose proof (drawn_all Q (N.to_nat size) coord Qg) as Qx.
  destruct (C ev _ _ H Lw Qx) as (x & Cx & Px).
  destruct (goes_harness free dg ng o Q comp P D Ng Ov Qg C (N.to_nat changes) ev _ _ rng1 H Lw Qx) as (ds & os & rng' & Go & L & An).
  { rewrite drawn_length, N2Nat.id, Tot. exact Ht. }
  { rewrite Cc, Tot. unfold usize_max. lia. }
  { rewrite Cn, Nam. exact Hn. }
  { destruct Ne as [Ne|Ap]; [left|right; exact Ap]. intros X. apply (f_equal (@length E)) in X. rewrite drawn_length in X.
    simpl in X. lia. }
  exists (ev :: ds), (x :: os), rng'. split.
  { apply test_seq_goes. exists ev, rng1, x, rng1, ds, os. split; [exact I|].
    split; [apply Cx|]. auto. }
  split; [simpl; congruence|]. intros [|i] y N1; cbn [nth_error] in N1.
  - injection N1 as <-. eexists _, _. split; [reflexivity|]. split; [|exact Px]. rewrite drawn_length. lia.
  - destruct (An i y N1) as (xs2 & g2 & X & Y). exists xs2, g2. split; [exact X|]. split; [|exact Y].
    pose proof (plain_hops_length _ _ _ _ X) as Ln. cbn [fst] in Ln. rewrite Ln. rewrite drawn_length, N2Nat.id. reflexivity.
Qed.

(** [BuildTest]: every build starts from the same coordinator. *)
Definition built (free : bool) (dg ng batch : N) (coord : G) (size : N) (ev ev' : eval) : Prop :=
  let start := (drawn gen_elt (N.to_nat size) coord, state_after gen_elt (N.to_nat size) coord) in
  harness free ev (fst start) (snd start) dg ng /\
  exists xs' g', plain_hop gen_elt gen_usize start (HInsert batch) = Some (xs', g') /\ harness free ev' xs' g' dg ng.

Lemma build_test_goes free (size_at : N -> N) dg ng batch (coord : G) :
  (1 <= dg)%N -> (1 <= ng)%N -> (ng * dg < usize_mod)%N ->
  forall n i bs es (rng : S),
  (forall j, (i <= j < i + N.of_nat n)%N -> (1 <= size_at j)%N /\ (size_at j + batch < usize_max)%N /\
     (size_at j / (ng * dg) + batch / (ng * dg) + 1 < usize_mod)%N) ->
  exists bs' es' rng',
    times n (fun st : N * list eval * list eval * S =>
       let '(i, build, edit, rng) := st in
       do ' (data, rng) <- incremental_init ev_inc_init (size_at i) dg ng coord rng;
       do ' (data', rng) <- batch_insert ev_insert batch data rng;
       Ok ((i + 1)%N, build ++ [data], edit ++ [data'], rng)) (i, bs, es, rng) =
      Ok ((i + N.of_nat n)%N, bs ++ bs', es ++ es', rng') /\
    length bs' = n /\ length es' = n /\
    forall j ev ev', nth_error bs' j = Some ev -> nth_error es' j = Some ev' ->
      built free dg ng batch coord (size_at (i + N.of_nat j)%N) ev ev'.
Proof.
  intros D Ng Ov. induction n as [|n IH]; intros i bs es rng Hb.
  { exists [], [], rng. rewrite !app_nil_r, N.add_0_r. split; [reflexivity|]. split; [reflexivity|]. split; [reflexivity|].
    intros [|j]; discriminate. }
  destruct (Hb i ltac:(lia)) as (S1 & S2 & S3). unfold usize_max in S2.
  destruct (init_harness (RM := count_meta E) free (size_at i) dg ng coord rng D Ng Ov ltac:(unfold usize_mod; lia))
    as (ev & rng1 & I & Cc & Cn & H).
  pose proof H as (t & T & _).
  assert (Ne : drawn (gen_elt (E := E)) (N.to_nat (size_at i)) coord <> []).
  { intros X. apply (f_equal (@length E)) in X. rewrite drawn_length in X. cbn [length] in X. lia. }
  destruct (hop_step free dg ng (HInsert batch) ev _ _ rng1 t D Ng Ov H T) as
    (ev' & rng2 & xs' & g' & t' & p & q & g0 & Ed & Pl & H' & _).
  { rewrite drawn_length, N2Nat.id. unfold usize_mod. lia. }
  { rewrite Cc. cbn [hop_batch]. unfold usize_max. lia. }
  { rewrite Cn. exact S3. }
  { left. exact Ne. }
  destruct (IH (i + 1)%N (bs ++ [ev]) (es ++ [ev']) rng2) as (bs' & es' & rng' & R & L1 & L2 & An).
  { intros j Hj. apply Hb. lia. }
  exists (ev :: bs'), (ev' :: es'), rng'. split.
  { cbn [times]. unfold incremental_init at 1. rewrite I. cbn [bind]. unfold batch_insert at 1.
    change (ev_insert ev batch rng1) with (ev_hop ev rng1 (HInsert batch)). rewrite Ed. cbn [bind].
    rewrite R, <- !app_assoc. do 4 f_equal. lia. }
  split; [simpl; congruence|]. split; [simpl; congruence|].
  intros [|j] a b A B; cbn [nth_error] in A, B.
  - injection A as <-. injection B as <-. rewrite N.add_0_r. split; [exact H|]. exists xs', g'. auto.
  - replace (i + N.of_nat (Datatypes.S j))%N with (i + 1 + N.of_nat j)%N by lia. now apply An.
Qed.
Lemma build_test_ok free (size_at : N -> N) dg ng batch (coord : G) count (rng : S) :
  (1 <= dg)%N -> (1 <= ng)%N -> (ng * dg < usize_mod)%N ->
  (forall j, (j < count)%N -> (1 <= size_at j)%N /\ (size_at j + batch < usize_max)%N /\
     (size_at j / (ng * dg) + batch / (ng * dg) + 1 < usize_mod)%N) ->
  exists bs es rng',
    build_test ev_inc_init ev_insert size_at dg ng coord batch count rng = Ok (bs, es, rng') /\
    length bs = N.to_nat count /\ length es = N.to_nat count /\
    forall j ev ev', nth_error bs j = Some ev -> nth_error es j = Some ev' ->
      built free dg ng batch coord (size_at (N.of_nat j)) ev ev'.
Proof.
  intros D Ng Ov Hb. destruct (build_test_goes free size_at dg ng batch coord D Ng Ov (N.to_nat count) 0%N [] [] rng)
    as (bs & es & rng' & R & L1 & L2 & An).
  { intros j Hj. apply Hb. lia. }
  exists bs, es, rng'. unfold build_test. rewrite R. split; [reflexivity|]. auto.
Qed.
End IRaz.

(** ** The vector harness *)
Section Vec.
Context {E G S : Type} {CG : Coord E G}.

Lemma vec_edit o xs (g : G) (rng : S) : (xs <> [] \/ exists b, o = HAppend b) ->
  exists ev, vec_editor o (xs, g) rng = Ok (ev, rng) /\ vec_plain_hop gen_elt gen_usize (xs, g) o = Some ev /\
    length (fst ev) = length xs + N.to_nat (hop_batch o).
Proof.
  intros Ne. destruct o as [b|b]; cbn [vec_editor vec_plain_hop plain_hop hop_batch].
  - eexists. split; [unfold batch_append, vec_m_append; rewrite vec_append_spec; reflexivity|]. split; [reflexivity|].
    cbn [fst]. now rewrite app_length, drawn_length.
  - destruct Ne as [Ne|[b' X]]; [|discriminate X]. unfold batch_insert, vec_m_insert. rewrite vec_insert_spec by exact Ne.
    destruct xs as [|x xs]; [now elim Ne|]. destruct (gen_usize _) as [r g2]. cbn [bind fst snd].
    eexists. split; [reflexivity|]. split; [reflexivity|]. set (loc := N.to_nat _).
    cbn [fst]. rewrite !app_length, rev_length, drawn_length.
    pose proof (f_equal (@length E) (firstn_skipn loc (x :: xs))) as L. rewrite app_length in L. cbn [fst] in *. lia.
Qed.

Lemma vec_goes {O} o (comp : computor O (eval_vec E G) S) : (forall ev, fst ev <> [] \/ (exists b, o = HAppend b) -> exists x, forall r, comp ev r = Ok (x, r)) ->
  forall n xs (g : G) (rng : S), (xs <> [] \/ exists b, o = HAppend b) ->
  exists ds os, goes (vec_editor o) comp (xs, g) rng ds os rng /\ length os = n /\
    forall i x, nth_error os i = Some x -> exists ev,
      vec_plain_hops gen_elt gen_usize (xs, g) (repeat o (Datatypes.S i)) = Some ev /\ forall r, comp ev r = Ok (x, r).
Proof.
  intros C. induction n as [|n IH]; intros xs g rng Ne.
  { exists [], []. split; [constructor|]. split; [reflexivity|]. intros [|i] x; discriminate. }
  destruct (vec_edit o xs g rng Ne) as ([xs' g'] & Ed & Pl & L1). cbn [fst] in L1.
  assert (Ne' : xs' <> [] \/ exists b, o = HAppend b).
  { destruct Ne as [Ne|Ap]; [left|right; exact Ap]. intros ->. destruct xs; [now apply Ne|discriminate L1]. }
  destruct (C (xs', g') Ne') as (x & Cx).
  destruct (IH xs' g' rng Ne') as (ds & os & Go & L & An).
  exists ((xs', g') :: ds), (x :: os). split.
  { econstructor; [exact Ed|apply Cx|exact Go]. }
  split; [simpl; congruence|]. intros [|i] y N1; cbn [nth_error] in N1.
  - injection N1 as <-. exists (xs', g'). cbn [repeat vec_plain_hops]. rewrite Pl. auto.
  - destruct (An i y N1) as (ev2 & X & Y). exists ev2. split; [|exact Y].
    change (repeat o (Datatypes.S (Datatypes.S i))) with (o :: repeat o (Datatypes.S i)).
    cbn [vec_plain_hops]. now rewrite Pl.
Qed.

Lemma vec_experiment {O} o (comp : computor O (eval_vec E G) S) size dg ng changes (coord : G) (rng : S) :
  (forall ev, fst ev <> [] \/ (exists b, o = HAppend b) -> exists x, forall r, comp ev r = Ok (x, r)) ->
  (1 <= size)%N \/ (exists b, o = HAppend b) ->
  exists ds os,
    test_seq (incremental_init vec_m_init size dg ng coord) (vec_editor o) comp changes rng = Ok (ds, os, rng) /\
    length os = Datatypes.S (N.to_nat changes) /\
    forall i x, nth_error os i = Some x -> exists ev,
      vec_edited gen_elt gen_usize size coord o i = Some ev /\ forall r, comp ev r = Ok (x, r).
Proof.
  intros C Ne. set (start := start gen_elt size coord).
  assert (Ne' : fst start <> [] \/ exists b, o = HAppend b).
  { destruct Ne as [Ne|Ap]; [left|right; exact Ap]. intros X. apply (f_equal (@length E)) in X. unfold start, ActionSpec.start in X. cbn [fst] in X.
    rewrite drawn_length in X. cbn [length] in X. lia. }
  destruct (C start Ne') as (x & Cx).
  destruct (vec_goes o comp C (N.to_nat changes) (fst start) (snd start) rng Ne') as (ds & os & Go & L & An).
  exists (start :: ds), (x :: os). split.
  { apply test_seq_goes. exists start, rng, x, rng, ds, os. split.
    { unfold incremental_init, vec_m_init, vec_inc_init. rewrite draw_eq, push_all. reflexivity. }
    split; [apply Cx|]. auto. }
  split; [simpl; congruence|]. intros [|i] y N1; cbn [nth_error] in N1.
  - injection N1 as <-. exists start. auto.
  - exact (An i y N1).
Qed.

(** With appends the two lists are the same at any time. *)
Lemma appends_same_aux b n : forall st, vec_plain_hops (gen_elt (E := E) (G := G)) gen_usize st (repeat (HAppend b) n) =
  plain_hops gen_elt gen_usize st (repeat (HAppend b) n).
Proof. induction n as [|n IH]; intros [xs g]; [reflexivity|]. cbn [repeat vec_plain_hops plain_hops vec_plain_hop]. cbn [plain_hop]. apply IH. Qed.
Lemma appends_same size coord b i : vec_edited (gen_elt (E := E) (G := G)) gen_usize size coord (HAppend b) i =
  edited gen_elt gen_usize size coord (HAppend b) i.
Proof. apply appends_same_aux. Qed.
End Vec.
