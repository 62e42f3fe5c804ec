(** * Memoised computations in experiments whose archive points are all named. *)

From Verif Require Import Base BaseFacts Spec SpecRaz LevelTreeModel TreeSpec TreeProofs TreeCursorModel
  RazMetaModel RazModel CursorProofs RazView RazScripts RazProofs RazFocus RazReach RazFrom RazIndex StackProofs
  MemoModel MemoSpec MemoProofs MemoCost MemoHistory EvalModel EvalSpec EvalScripts EvalProofs EvalHistory
  ActionModel ActionSpec ActionProofs.

(** ** Runs *)
Lemma runs_app {X K R Y Lg} (run : X -> mtab K R -> res (Y * mtab K R * list Lg)) xs : forall ys tab rs T lgs,
  runs run (xs ++ ys) tab = Ok (rs, T, lgs) ->
  exists rs1 T1 lgs1 rs2 lgs2, runs run xs tab = Ok (rs1, T1, lgs1) /\ runs run ys T1 = Ok (rs2, T, lgs2) /\
    rs = rs1 ++ rs2 /\ lgs = lgs1 ++ lgs2 /\ length lgs1 = length xs.
Proof.
  induction xs as [|x xs IH]; intros ys tab rs T lgs H; cbn [app runs] in *.
  - exists [], tab, [], rs, lgs. auto.
  - destruct (run x tab) as [[[y tab1] lg]|e|]; cbn [bind] in *; try discriminate.
    destruct (runs run (xs ++ ys) tab1) as [[[ys' tab2] lgs']|e|] eqn:Q; cbn [bind] in *; try discriminate. inv H.
    destruct (IH _ _ _ _ _ Q) as (rs1 & T1 & lgs1 & rs2 & lgs2 & A & B & -> & -> & L).
    exists (y :: rs1), T1, (lg :: lgs1), rs2, lgs2. rewrite A. cbn [bind]. split; [reflexivity|]. split; [exact B|].
    split; [reflexivity|]. split; [reflexivity|]. simpl. congruence.
Qed.
Lemma runs_length {X K R Y Lg} (run : X -> mtab K R -> res (Y * mtab K R * list Lg)) xs tab rs T lgs :
  runs run xs tab = Ok (rs, T, lgs) -> length lgs = length xs.
Proof. intros H. rewrite <- (app_nil_r xs) in H. destruct (runs_app run xs [] tab _ _ _ H) as (? & ? & ? & ? & ? & _ & B & _ & -> & L).
  cbn [runs] in B. inv B. now rewrite app_nil_r. Qed.

(** The call on the tree after the first ones. *)
Lemma runs_nth {X K R Y Lg} (run : X -> mtab K R -> res (Y * mtab K R * list Lg)) xs y ys tab rs T lgs lg :
  runs run (xs ++ y :: ys) tab = Ok (rs, T, lgs) -> nth_error lgs (length xs) = Some lg ->
  exists rs1 T1 lgs1 x T', runs run xs tab = Ok (rs1, T1, lgs1) /\ run y T1 = Ok (x, T', lg).
Proof.
  intros H N. destruct (runs_app run xs (y :: ys) tab _ _ _ H) as (rs1 & T1 & lgs1 & rs2 & lgs2 & A & B & _ & -> & L).
  rewrite nth_error_app2, L, Nat.sub_diag in N by lia. cbn [runs] in B.
  destruct (run y T1) as [[[x T'] lg']|e|] eqn:Q; cbn [bind] in B; try discriminate.
  destruct (runs run ys T') as [[[ys' tab2] lgs']|e|] eqn:Q'; cbn [bind] in *; try discriminate. inv B.
  cbn [nth_error] in N. inv N. exists rs1, T1, lgs1, x, T'. auto.
Qed.

Section Points.
Context {E : Type}.
Notation atoms := (list (atom E level)).

Lemma seen_left_top top (l : atoms) : forall t, (t <= top)%N -> levels_in (fun lv => (lv <= top)%N) l ->
  seen_from_left t l <= N.to_nat (top - t).
Proof.
  induction l as [|[e|m n] l IH]; intros t Ht F; cbn [seen_from_left]; [lia|now apply IH|].
  inv F. cbn [fst] in H1. destruct (N.ltb_spec t m).
  - specialize (IH m H1 H2). lia.
  - now apply IH.
Qed.

Definition all_named (l : atoms) : Prop := forall p, In p (marks l) -> snd p <> None.
Lemma all_named_app a b : all_named (a ++ b) <-> all_named a /\ all_named b.
Proof.
  unfold all_named. rewrite marks_app. split.
  - intros H. split; intros p I; apply H, in_or_app; auto.
  - intros [A B] p I. apply in_app_or in I. destruct I; auto.
Qed.
Lemma named_point_names (l : atoms) : all_named l -> map snd (marks l) = map Some (point_names l).
Proof.
  unfold all_named, point_names. induction (marks l) as [|[lv nm] r IH]; intros H; [reflexivity|].
  cbn [map flat_map snd]. rewrite map_app, <- IH by (intros p I; apply H; now right).
  destruct nm as [n|]; [reflexivity|]. exfalso. now apply (H (lv, None) (or_introl eq_refl)).
Qed.
Lemma has_point_names n (l : atoms) : has_point n l <-> In n (point_names l).
Proof.
  unfold has_point, point_names. rewrite in_flat_map, in_map_iff. split.
  - intros ([lv nm] & X & I). cbn [snd] in X. subst nm. exists (lv, Some n). split; [exact I|]. now left.
  - intros ([lv nm] & I & X). exists (lv, nm). split; [|exact I]. cbn [snd] in *. destruct nm; [|contradiction].
    destruct X as [->|[]]. reflexivity.
Qed.
Lemma orderly_tail (a b : list atoms) : orderly_points (a ++ b) -> orderly_points b.
Proof. induction a as [|x a IH]; [auto|]. intros H. apply IH. cbn [app orderly_points] in H. exact (proj1 H). Qed.

(** With namegauge one every archive point of a batch is named. *)
Lemma marked_all_named dg lev nm xs : forall k, all_named (@marked E dg 1 lev nm k xs).
Proof.
  induction xs as [|x xs IH]; intros k; [intros p []|]. rewrite marked_cons.
  change (all_named ([Elt x] ++ (if ((k + 1) mod dg =? 0)%N
       then [Mark (lev ((k + 1) / dg))%N
               (if ((k + 1) mod (1 * dg) =? 0)%N then point_name (Some (NNum (nm ((k + 1) / (1 * dg))%N))) else None) : atom E level]
       else []) ++ marked dg 1 lev nm (k + 1) xs)).
  apply all_named_app. split; [intros p []|]. apply all_named_app. split; [|apply IH].
  rewrite N.mul_1_l. destruct ((k + 1) mod dg =? 0)%N; [|intros p []]. intros p [<-|[]]. discriminate.
Qed.
Lemma seam_all_named new (q : atoms) : all_named new -> all_named (seam new q).
Proof.
  intros H. unfold seam. destruct (is_elt q); [exact H|]. destruct (strip_cases new) as [->|(m & n & X)]; [exact H|].
  rewrite X in H. now apply all_named_app in H.
Qed.
End Points.

Section Exp.
Context {E G S : Type} {CG : Coord E G} {WS : WordRng S}.
Notation eval := (eval_raz E count G).

(** The trees so far, the latest first, when names below [k] have been used. *)
Definition tidy (k : N) (hist : list (raz_tree E count)) : Prop :=
  Forall (fun t => tree_reached false t) hist /\ orderly_points (map contents hist) /\
  Forall (fun t => Forall (fun n => exists i, n = NPair (NNum i) (NStr "tree") /\ (i < k)%N) (point_names (contents t))) hist /\
  Forall (fun t => levels_in (fun l => (l <= 64)%N) (contents t)) hist.

(** [t'] is [t] with a batch of at most [b] elements put in somewhere. *)
Definition batch_put (dg b : N) (t t' : raz_tree E count) : Prop :=
  exists pre new post, contents t = pre ++ post /\ contents t' = pre ++ new ++ post /\
    (N.of_nat (length (elts new)) = b /\ N.of_nat (length (marks new)) <= b / dg + 1)%N.

Fixpoint chain {X} (R : X -> X -> Prop) (x : X) (l : list X) : Prop :=
  match l with [] => True | y :: r => R x y /\ chain R y r end.

Lemma batch_marks dg lev fn c xs q : (1 <= dg)%N ->
  (N.of_nat (length (marks (seam (@batch_atoms E dg 1 lev fn c xs) q))) <= N.of_nat (length xs) / dg + 1)%N.
Proof.
  intros D. set (new := batch_atoms _ _ _ _ _ _).
  assert (An : all_named new) by apply marked_all_named.
  destruct (seam_names new q) as (rest & Sn).
  assert (L : length (marks (seam new q)) = length (point_names (seam new q))).
  { rewrite <- (map_length snd (marks _)), named_point_names by now apply seam_all_named. apply map_length. }
  rewrite L. assert (L2 : length (point_names (seam new q)) <= length (point_names new)) by (rewrite Sn, app_length; lia).
  assert (L3 : length (point_names new) = N.to_nat ((c + N.of_nat (length xs)) / dg - c / dg)).
  { unfold new, batch_atoms. rewrite marked_names by lia. rewrite map_length, seq_length, N.mul_1_l. reflexivity. }
  pose proof (div_batch c (N.of_nat (length xs)) dg D) as Z. rewrite L3 in L2. clear - L2 Z. revert L2 Z.
  generalize ((c + N.of_nat (length xs)) / dg)%N, (c / dg)%N, (N.of_nat (length xs) / dg)%N. lia.
Qed.

Lemma tidy_step dg o (ev : eval) xs g (rng : S) t older :
  (1 <= dg)%N -> (dg < usize_mod)%N -> harness false ev xs g dg 1 -> ev_tree ev = Some t ->
  (N.of_nat (length xs) < usize_mod)%N -> (ev_counter ev + hop_batch o < usize_max)%N ->
  (ev_names ev + hop_batch o / dg + 1 < usize_mod)%N ->
  (xs <> [] \/ exists b, o = HAppend b) -> tidy (ev_names ev) (t :: older) ->
  exists ev' rng' xs' g' t', ev_hop ev rng o = Ok (ev', rng') /\ harness false ev' xs' g' dg 1 /\ ev_tree ev' = Some t' /\
    ev_counter ev' = (ev_counter ev + hop_batch o)%N /\
    ev_names ev' = (ev_names ev + hop_batch o / dg + 1)%N /\
    N.of_nat (length xs') = (N.of_nat (length xs) + hop_batch o)%N /\
    batch_put dg (hop_batch o) t t' /\ tidy (ev_names ev') (t' :: t :: older).
Proof.
  intros D Ov H T Lx Hc Hn Ne (Re & Od & Us & Lv).
  destruct (hop_step false dg 1 o ev xs g rng t D ltac:(lia) ltac:(lia) H T Lx Hc ltac:(rewrite N.mul_1_l; exact Hn) Ne)
    as (ev' & rng1 & xs' & g' & t' & p & q & g0 & Ed & _ & H' & T' & Cc & Cn & Lx' & Ct & Ct').
  rewrite N.mul_1_l in Cn. set (new := batch_atoms _ _ _ _ _ _) in Ct'.
  exists ev', rng1, xs', g', t'. repeat (split; [assumption|]).
  assert (An : all_named (seam new q)) by (apply seam_all_named, marked_all_named).
  split.
  { exists p, (seam new q), q. split; [exact Ct|]. split; [exact Ct'|]. split.
    - rewrite seam_elts. unfold new, batch_atoms. rewrite marked_elts, drawn_length. lia.
    - pose proof (batch_marks dg (nth_level rng) (ev_names ev) (ev_counter ev) (drawn gen_elt (N.to_nat (hop_batch o)) g0) q D) as B.
      rewrite drawn_length, N2Nat.id in B. exact B. }
  pose proof H' as (t2 & T2 & R' & _ & _ & _ & _ & ND & FA). rewrite T' in T2. injection T2 as <-.
  assert (Old : all_named (contents t)).
  { cbn [map orderly_points] in Od. exact (proj1 (proj2 Od)). }
  assert (An' : all_named (contents t')).
  { rewrite Ct'. rewrite Ct in Old. apply all_named_app in Old. destruct Old. apply all_named_app. split; [assumption|].
    apply all_named_app. auto. }
  assert (Us' : Forall (fun t => Forall (fun n => exists i, n = NPair (NNum i) (NStr "tree") /\ (i < ev_names ev')%N)
    (point_names (contents t))) (t :: older)).
  { eapply Forall_impl; [|exact Us]. intros u Fu. eapply Forall_impl; [|exact Fu]. intros n (i & -> & Hi). exists i. split; [reflexivity|].
    rewrite Cn, <- N.add_assoc. eapply N.lt_le_trans; [exact Hi|apply N.le_add_r]. }
  split; [constructor; assumption|]. split; [|split; [constructor; assumption|]].
  - change (map contents (t' :: t :: older)) with (contents t' :: contents t :: map contents older). split; [exact Od|].
    split; [exact An'|]. split.
    { rewrite named_point_names by exact An'. apply FinFun.Injective_map_NoDup; [congruence|exact ND]. }
    intros n Hn'. apply has_point_names in Hn'. rewrite Ct', !point_names_app in Hn'. rewrite !in_app_iff in Hn'.
    assert (Cas : In n (point_names (contents t)) \/ In n (point_names (seam new q))).
    { rewrite Ct, point_names_app, in_app_iff. tauto. }
    destruct Cas as [I|I]; [left; now apply has_point_names|right].
    assert (Fr : exists i, n = NPair (NNum i) (NStr "tree") /\ (ev_names ev <= i)%N).
    { destruct (seam_names new q) as (rest & Sn).
      assert (I2 : In n (point_names new)) by (rewrite Sn; apply in_or_app; now left).
      unfold new, batch_atoms in I2. rewrite marked_names in I2 by lia. apply in_map_iff in I2. destruct I2 as (i & <- & _).
      eexists. split; [reflexivity|]. lia. }
    destruct Fr as (i & -> & Hi). intros u Iu Hu. apply has_point_names in Hu.
    change (contents t :: map contents older) with (map contents (t :: older)) in Iu.
    apply in_map_iff in Iu. destruct Iu as (w & <- & Iw).
    rewrite Forall_forall in Us. specialize (Us w Iw). rewrite Forall_forall in Us.
    destruct (Us _ Hu) as (j & X & Hj). injection X. lia.
  - constructor; [|exact Lv]. inv Lv. rewrite Ct'. rewrite Ct in H2. apply levels_app in H2. destruct H2 as [L1 L2].
    apply levels_app. split; [exact L1|]. apply levels_app. split; [|exact L2]. apply seam_levels, batch_levels.
Qed.

Lemma tidy_goes {O} dg o (comp : computor O eval S) n :
  (1 <= dg)%N -> (dg < usize_mod)%N ->
  forall ev xs g (rng : S) t older ds os r, harness false ev xs g dg 1 -> ev_tree ev = Some t ->
  (N.of_nat (length xs) + hop_total (repeat o n) < usize_max)%N ->
  (ev_counter ev + hop_total (repeat o n) < usize_max)%N ->
  (ev_names ev + hop_names dg 1 (repeat o n) < usize_mod)%N ->
  (xs <> [] \/ exists b, o = HAppend b) -> tidy (ev_names ev) (t :: older) ->
  goes (iraz_editor o) comp ev rng ds os r -> length os = n ->
  exists ts k, Forall2 (fun d t => ev_tree d = Some t) ds ts /\ chain (batch_put dg (hop_batch o)) t ts /\
    tidy k (rev ts ++ t :: older).
Proof.
  intros D Ov. induction n as [|n IH]; intros ev xs g rng t older ds os r H T Hl Hc Hn Ne Ti Go L.
  { inv Go; [|discriminate L]. exists [], (ev_names ev). split; [constructor|]. split; [exact I|]. exact Ti. }
  inv Go; [discriminate L|]. rename H0 into Ed. rename H1 into Cx. rename H2 into Go.
  cbn [repeat hop_total hop_names fold_right] in Hl, Hc, Hn.
  fold (hop_total (repeat o n)) in *. fold (hop_names dg 1 (repeat o n)) in *. rewrite N.mul_1_l in Hn.
  unfold usize_max, usize_mod in *.
  destruct (tidy_step dg o ev xs g rng t older D Ov H T ltac:(unfold usize_mod; lia) ltac:(unfold usize_max; lia)
    ltac:(unfold usize_mod; lia) Ne Ti) as (ev' & rng1 & xs' & g' & t' & Ed' & H' & T' & Cc & Cn & Lx & Bp & Ti').
  assert (X : ev_hop ev rng o = Ok (d1, s1)) by (destruct o; exact Ed). rewrite Ed' in X. injection X as -> ->.
  destruct (IH d1 xs' g' s2 t' (t :: older) ds0 os0 r H' T') as (ts & k & F2 & Ch & Ti2);
    [rewrite Lx; lia|rewrite Cc; lia|rewrite Cn; lia| |exact Ti'|exact Go|cbn [length] in L; congruence|].
  { destruct Ne as [Ne|Ap]; [left|right; exact Ap]. intros Z. subst xs'. apply Ne. destruct xs; [reflexivity|]. cbn [length] in Lx. lia. }
  exists (t' :: ts), k. split; [constructor; assumption|]. split; [split; assumption|].
  cbn [rev]. rewrite <- app_assoc. exact Ti2.
Qed.

Lemma chain_nth {X} (R : X -> X -> Prop) l : forall x i y, nth_error (x :: l) (Datatypes.S i) = Some y -> chain R x l ->
  exists a, nth_error (x :: l) i = Some a /\ R a y.
Proof.
  induction l as [|z l IH]; intros x i y N C; [now destruct i|]. destruct C as [C1 C2]. destruct i as [|i].
  - cbn [nth_error] in N. inv N. exists x. auto.
  - destruct (IH z i y N C2) as (a & A & B). exists a. auto.
Qed.

Lemma exp_trees {O} size dg changes o (comp : computor O eval S) (coord : G) (rng : S) ds os r :
  fits size dg 1 changes o ->
  test_seq (incremental_init ev_inc_init size dg 1 coord) (iraz_editor o) comp changes rng = Ok (ds, os, r) ->
  exists t ts k, Forall2 (fun d t => ev_tree d = Some t) ds (t :: ts) /\ chain (batch_put dg (hop_batch o)) t ts /\ tidy k (rev (t :: ts)).
Proof.
  intros (Sz & D & _ & Ov & Ht & Hn) H. rewrite N.mul_1_l in Ov, Hn. unfold usize_max in Ht.
  apply test_seq_goes in H. destruct H as (d & s & x & s1 & ds1 & os1 & I & _ & Go & L & -> & ->).
  destruct (inc_init_spec (RM := count_meta E) false size dg 1 coord rng D ltac:(lia) ltac:(lia) ltac:(unfold usize_mod; lia)) as (t & I1 & R & Ct).
  destruct (init_harness (RM := count_meta E) false size dg 1 coord rng D ltac:(lia) ltac:(lia) ltac:(unfold usize_mod; lia))
    as (ev & rng1 & I2 & Cc & Cn & H).
  unfold incremental_init in I. rewrite I1 in I2. rewrite I1 in I. injection I as Hd Hs. injection I2 as He Hr. subst s rng1.
  rewrite He in Hd. subst d. rewrite N.mul_1_l in Cn.
  assert (T : ev_tree ev = Some t) by (rewrite <- He; reflexivity).
  assert (An : all_named (contents t)). { rewrite Ct. apply (seam_all_named _ []), marked_all_named. }
  pose proof H as (t2 & T2 & _ & _ & _ & _ & _ & ND & FA). rewrite T in T2. injection T2 as <-.
  destruct (tidy_goes dg o comp (N.to_nat changes) D Ov ev _ _ s1 t [] ds1 os1 r H T) as (ts & k & F2 & Ch & Ti);
    [| | | | |exact Go|exact L|].
  { rewrite drawn_length, N2Nat.id. rewrite hop_total_repeat, N2Nat.id. exact Ht. }
  { rewrite Cc, hop_total_repeat, N2Nat.id. unfold usize_max. lia. }
  { rewrite Cn, hop_names_repeat, N2Nat.id, N.mul_1_l. exact Hn. }
  { left. intros X. apply (f_equal (@length E)) in X. rewrite drawn_length in X. cbn [length] in X. lia. }
  { split; [constructor; [exact R|constructor]|]. split.
    - cbn [map orderly_points]. split; [exact Logic.I|]. split; [exact An|]. split; [|intros n _; exact Logic.I].
      rewrite named_point_names by exact An. apply FinFun.Injective_map_NoDup; [congruence|exact ND].
    - split; [constructor; [exact FA|constructor]|]. constructor; [|constructor]. rewrite Ct.
      apply (seam_levels _ _ []), batch_levels. }
  exists t, ts, k. split; [constructor; assumption|]. split; [exact Ch|]. cbn [rev]. exact Ti.
Qed.

Context (eqD : forall x y : tree_data E count, {x = y} + {x <> y}).

Lemma exp_split (t : raz_tree E count) ts i t' : nth_error (t :: ts) (Datatypes.S i) = Some t' ->
  exists a before after, nth_error (t :: ts) i = Some a /\ t :: ts = (before ++ [a]) ++ t' :: after /\ length (before ++ [a]) = Datatypes.S i.
Proof.
  intros N. apply nth_error_split in N. destruct N as (l1 & l2 & X & L). destruct (exists_last (l := l1)) as (b & a & ->).
  { intros ->. discriminate L. }
  exists a, b, l2. split; [|auto]. rewrite X, <- app_assoc. rewrite app_length in L. cbn [length] in L.
  rewrite nth_error_app2 by lia. replace (i - length b) with 0 by lia. reflexivity.
Qed.

Lemma exp_up {R} (f : option R -> tree_data E count -> level -> option name -> option R -> res R) dg b k t ts :
  chain (batch_put dg b) t ts -> tidy k (rev (t :: ts)) ->
  forall rs T lgs, runs (on_tree (m_fold_up_meta eqD f)) (t :: ts) no_memos = Ok (rs, T, lgs) ->
  forall i lg, nth_error lgs (Datatypes.S i) = Some lg ->
  exists a t' pre new post, nth_error (t :: ts) i = Some a /\ nth_error (t :: ts) (Datatypes.S i) = Some t' /\
    contents a = pre ++ post /\ contents t' = pre ++ new ++ post /\
    (N.of_nat (length (elts new)) = b /\ N.of_nat (length (marks new)) <= b / dg + 1)%N /\
    seen_from_left 0%N post <= 64 /\
    length lg <= 1 + 2 * (seen_from_right pre + length (marks new) + seen_from_left 0%N post).
Proof.
  intros Ch (Re & Od & _ & Lv) rs T lgs H i lg N.
  pose proof (runs_length _ _ _ _ _ _ H) as L.
  destruct (nth_error (t :: ts) (Datatypes.S i)) as [t'|] eqn:Nt.
  2:{ apply nth_error_None in Nt. rewrite <- L in Nt. apply nth_error_None in Nt. congruence. }
  destruct (chain_nth _ _ _ _ _ Nt Ch) as (a & Na & pre & new & post & Ca & Ct & B1 & B2).
  destruct (exp_split t ts i t' Nt) as (a' & before & after & Na' & X & Lb). rewrite Na in Na'. injection Na' as <-.
  rewrite X in H. rewrite <- Lb in N. destruct (runs_nth _ _ _ _ _ _ _ _ _ H N) as (rs1 & T1 & lgs1 & x & T' & H1 & H2).
  rewrite X in Re, Od, Lv. rewrite rev_app_distr in Re, Od, Lv. cbn [rev] in Re, Od, Lv. rewrite <- !app_assoc in Re, Od, Lv.
  rewrite map_app in Od. apply orderly_tail in Od. apply Forall_app in Re. destruct Re as [_ Re].
  apply Forall_app in Lv. destruct Lv as [_ Lv]. rewrite rev_app_distr in Re, Od, Lv. cbn [rev app] in Re, Od, Lv.
  exists a, t', pre, new, post. split; [exact Na|]. split; [reflexivity|]. split; [exact Ca|]. split; [exact Ct|]. split; [auto|].
  split.
  - apply Forall_inv_tail in Lv. apply Forall_inv in Lv. rewrite Ca in Lv. apply levels_app in Lv. destruct Lv as [_ Lp].
    pose proof (seen_left_top 64%N post 0%N ltac:(lia) Lp) as Q. exact Q.
  - refine (up_cost eqD a t' (rev before) pre [] new post Re Od Ca Ct f rs1 T1 lgs1 x T' lg _ H2).
    cbn [rev]. rewrite rev_involutive. exact H1.
Qed.

Lemma exp_lr {R} (eqR : forall x y : R, {x = y} + {x <> y}) init bin (meta : R -> level * option name -> R) dg b k t ts :
  chain (batch_put dg b) t ts -> tidy k (rev (t :: ts)) ->
  forall rs T lgs, runs (m_rt_fold_lr_meta eqD eqR bin meta init) (t :: ts) no_memos = Ok (rs, T, lgs) ->
  forall i lg, nth_error lgs (Datatypes.S i) = Some lg ->
  exists a t' pre new post, nth_error (t :: ts) i = Some a /\ nth_error (t :: ts) (Datatypes.S i) = Some t' /\
    contents a = pre ++ post /\ contents t' = pre ++ new ++ post /\
    (N.of_nat (length (elts new)) = b /\ N.of_nat (length (marks new)) <= b / dg + 1)%N /\
    length lg <= 1 + 2 * (seen_from_right pre + length (marks new) + length (marks post)).
Proof.
  intros Ch (Re & Od & _) rs T lgs H i lg N.
  pose proof (runs_length _ _ _ _ _ _ H) as L.
  destruct (nth_error (t :: ts) (Datatypes.S i)) as [t'|] eqn:Nt.
  2:{ apply nth_error_None in Nt. rewrite <- L in Nt. apply nth_error_None in Nt. congruence. }
  destruct (chain_nth _ _ _ _ _ Nt Ch) as (a & Na & pre & new & post & Ca & Ct & B1 & B2).
  destruct (exp_split t ts i t' Nt) as (a' & before & after & Na' & X & Lb). rewrite Na in Na'. injection Na' as <-.
  rewrite X in H. rewrite <- Lb in N. destruct (runs_nth _ _ _ _ _ _ _ _ _ H N) as (rs1 & T1 & lgs1 & x & T' & H1 & H2).
  rewrite X in Re, Od. rewrite rev_app_distr in Re, Od. cbn [rev] in Re, Od. rewrite <- !app_assoc in Re, Od.
  rewrite map_app in Od. apply orderly_tail in Od. apply Forall_app in Re. destruct Re as [_ Re].
  rewrite rev_app_distr in Re, Od. cbn [rev app] in Re, Od.
  exists a, t', pre, new, post. split; [exact Na|]. split; [reflexivity|]. split; [exact Ca|]. split; [exact Ct|]. split; [auto|].
  refine (lr_cost eqD a t' (rev before) pre [] new post Re Od Ca Ct eqR _ (fun a lv nm => meta a (lv, nm)) init rs1 T1 lgs1 x T' lg _ _ H2).
  - reflexivity.
  - cbn [rev]. rewrite rev_involutive. exact H1.
Qed.
End Exp.
