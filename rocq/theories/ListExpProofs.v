(** * Experiments that make accumulators in cells answer as the plain ones. *)

From Verif Require Import Base BaseFacts Spec SpecRaz StackModel AStackModel LevelTreeModel TreeSpec TreeProofs TreeCursorModel RazMetaModel RazModel RazView RazProofs RazScripts
  RazFrom RazReach RazIndex LevelGenModel MemoModel EvalModel EvalSpec EvalScripts EvalProofs EvalHistory AccumModel AccumScripts AccumProofs ExampleModel ExampleSpec ExampleProofs
  ActionModel ActionSpec ActionProofs ActionUses StoreModel StoreSpec StoreScripts StoreProofs StoreNs MemoSpec MemoHistory MemoEval IncModel IncSpec IncProofs IncCost ExpStoreModel ExpStoreSpec ExpStoreProofs
  ListIncModel ListIncSpec ListIncProofs AdderExpProofs ListExpModel.

(** ** Runs on given handles *)
Section Runs.
Context {E M G S C K R Y : Type} (run : sraz_tree E M -> wm (level * list E) (tree_data E M) C K R Y).
Notation rstore := (store (level * list E) (tree_data E M)).
Notation table := (wtab (tree_data E M) C K R).
Fixpoint list_runs (hs : list (rstore * sraz_tree E M)) (cs : wcells C) (tab : table) : res (list (Y * wcells C) * list nat * wcells C * table) :=
  match hs with
  | [] => Ok ([], [], cs, tab)
  | c :: hs =>
      do ' (y, cs, _, tab, lg) <- run (snd c) (fst c) cs tab;
      do ' (ys, ns, cs', tab) <- list_runs hs cs tab;
      Ok ((y, cs) :: ys, length lg :: ns, cs', tab)
  end.
Lemma list_runs_app xs : forall ys cs tab, list_runs (xs ++ ys) cs tab =
  (do ' (a, n, cs1, tab1) <- list_runs xs cs tab; do ' (b, n', cs2, tab2) <- list_runs ys cs1 tab1; Ok (a ++ b, n ++ n', cs2, tab2)).
Proof.
  induction xs as [|c xs IH]; intros ys cs tab; cbn [list_runs app bind].
  - destruct (list_runs ys cs tab) as [[[[b n'] cs2] tab2]| |]; reflexivity.
  - destruct (run (snd c) (fst c) cs tab) as [[[[[y cs1] tr] tab1] lg]| |]; try reflexivity. cbn [bind]. rewrite IH.
    destruct (list_runs xs cs1 tab1) as [[[[a n] cs2] tab2]| |]; try reflexivity. cbn [bind]. destruct (list_runs ys cs2 tab2) as [[[[b n'] cs3] tab3]| |]; reflexivity.
Qed.
Lemma handles_both (xs ys : list (rstore * seval_raz E M G)) : handles (xs ++ ys) = handles xs ++ handles ys.
Proof. apply flat_map_app. Qed.

Context {K' R' Y' : Type} (comp : sraz_tree E M -> im (level * list E) (tree_data E M) K' R' Y') (cs0 : wcells C) (tab0 : table).
Notation making := (sm (level * list E) (tree_data E M) (seval_raz E M G * S)).
Definition alongside (x : session E M G S K' R' Y') (a : wtrial E M G S C K R Y) : Prop :=
  se_now x = wt_now a /\ se_rng x = wt_rng a /\ se_store x = wt_store a /\ handles (se_data x) = wt_given a /\
  list_runs (handles (se_data x)) cs0 tab0 = Ok (wt_answers a, wt_calls a, wt_cells a, wt_table a).
Lemma step_alongside (make : making) ds vs lgs st tb x a ys ns cs tab more R0 :
  s_test_step comp make ds vs lgs st tb = Ok x -> list_runs (handles ds) cs0 tab0 = Ok (ys, ns, cs, tab) ->
  list_runs (handles (se_data x) ++ more) cs0 tab0 = Ok R0 -> a = wtrial_step run make (handles ds) ys ns st cs tab -> exists b, a = Ok b /\ alongside x b.
Proof.
  intros H H0 Z ->. unfold s_test_step in H. apply bind_Ok in H. destruct H as ([[sv rng] st1] & H1 & H). apply bind_Ok in H.
  destruct H as ([[[y tr] tb1] lg] & H2 & H). injection H as <-. cbn [se_data] in Z |- *.
  unfold sv_compute in H2. destruct (sv_tree sv) as [h|] eqn:T; [|discriminate H2].
  assert (Hs : handles (ds ++ [(st1, sv)]) = handles ds ++ [(st1, h)]) by (rewrite handles_both; unfold handles at 2; cbn [flat_map snd fst]; rewrite T; reflexivity).
  rewrite Hs in Z. rewrite list_runs_app, list_runs_app, H0 in Z. cbn [bind list_runs fst snd] in Z.
  unfold wtrial_step. rewrite H1. cbn [bind]. rewrite T. cbn [unwrap bind].
  destruct (run h st1 cs tab) as [[[[[y1 cs1] tr1] tab1] lg1]| |] eqn:Q; try discriminate Z. cbn [bind].
  eexists. split; [reflexivity|]. unfold alongside. cbn [se_now se_rng se_store se_data wt_now wt_rng wt_store wt_given wt_answers wt_calls wt_cells wt_table].
  do 3 (split; [reflexivity|]). split; [exact Hs|]. rewrite Hs, list_runs_app, H0. cbn [bind list_runs fst snd]. rewrite Q. reflexivity.
Qed.
Lemma test_alongside (create : S -> making) (edit : seval_raz E M G -> S -> making) changes rng st tb x R0 :
  s_test_seq create edit comp changes rng st tb = Ok x -> list_runs (handles (se_data x)) cs0 tab0 = Ok R0 ->
  exists b, w_test run create edit changes rng st cs0 tab0 = Ok b /\ alongside x b.
Proof.
  intros H Z. unfold s_test_seq in H. apply bind_Ok in H. destruct H as (x1 & H1 & H).
  set (f := fun x : session E M G S K' R' Y' => s_test_step comp (edit (se_now x) (se_rng x)) (se_data x) (se_answers x) (se_work x) (se_store x) (se_tab x)) in H.
  assert (Ex : forall n x z, times n f x = Ok z -> exists l, handles (se_data z) = handles (se_data x) ++ l).
  { clear. induction n as [|n IH]; intros x z H; cbn [times] in H; [injection H as <-; exists []; now rewrite app_nil_r|].
    apply bind_Ok in H. destruct H as (x1 & H1 & H). destruct (IH _ _ H) as [l L]. unfold f, s_test_step in H1.
    apply bind_Ok in H1. destruct H1 as ([[sv rng] st1] & _ & H1). apply bind_Ok in H1. destruct H1 as ([[[y tr] tb1] lg] & _ & H1). injection H1 as <-.
    cbn [se_data] in L. rewrite handles_both, <- app_assoc in L. eexists. exact L. }
  destruct (Ex _ _ _ H) as [l L]. rewrite L in Z.
  destruct (step_alongside _ [] _ _ _ _ _ _ [] [] cs0 tab0 _ _ H1 eq_refl Z eq_refl) as (b & Eb & B).
  unfold handles in Eb. cbn [flat_map] in Eb. unfold w_test. rewrite Eb. cbn [bind]. rewrite <- L in Z. clear H1 Eb L l. revert x1 b H B.
  induction (N.to_nat changes) as [|n IH]; intros x1 b H B; cbn [times] in H |- *.
  - injection H as <-. exists b. auto.
  - apply bind_Ok in H. destruct H as (x2 & H1 & H). destruct (Ex _ _ _ H) as [l L].
    destruct B as (B1 & B2 & B3 & B5 & B4). rewrite L in Z. unfold f in H1. rewrite B1, B2, B3 in H1.
    destruct (step_alongside _ _ _ _ _ _ _ _ _ _ _ _ _ _ H1 B4 Z eq_refl) as (b2 & Eb & B). rewrite B5 in Eb. rewrite Eb. cbn [bind]. rewrite <- L in Z.
    exact (IH _ _ H B).
Qed.
End Runs.

Lemma Forall2_rev_both {X Y} {P : X -> Y -> Prop} {xs ys} : Forall2 P xs ys -> Forall2 P (rev xs) (rev ys).
Proof. induction 1; cbn [rev]; [constructor|]. apply Forall2_app; [assumption|]. constructor; [assumption|constructor]. Qed.

Section Unit.
Context {E G S : Type} {CG : Coord E G} {WS : WordRng S}.
Notation eval := (eval_raz E count G).
Notation nothing := (calling (ev_comp_fold tt (fun _ _ => tt)) : computor unit eval S).
Definition sound_tree (t : raz_tree E count) : Prop := tree_reached false t /\ NoDup (node_names t).
Lemma unit_session size dg ng changes o (coord : G) (rng : S) : fits size dg ng changes o ->
  exists ds os r ts, test_seq (incremental_init ev_inc_init size dg ng coord) (iraz_editor o) nothing changes rng = Ok (ds, os, r) /\
    length ds = Datatypes.S (N.to_nat changes) /\
    (forall i d, nth_error ds i = Some d -> exists xs g, edited gen_elt gen_usize size coord o i = Some (xs, g) /\ exists g, harness false d xs g dg ng) /\
    Forall2 (fun d t => ev_tree d = Some t /\ sound_tree t) ds ts.
Proof.
  intros F.
  destruct (run_iraz false size dg ng changes o (fun _ => True) (fun (d : eval) (r : S) => Ok (d, r))
    (fun xs d => exists g, harness false d xs g dg ng) coord rng F (fun _ => I)) as (ds1 & os1 & r1 & T1 & L1 & A1).
  { intros d xs g Hd Lo Fx. exists d. split; [reflexivity|]. intros _. exists g. exact Hd. }
  destruct (run_iraz false size dg ng changes o (fun _ => True) (calling (ev_comp_fold tt (fun _ _ => tt)) : computor unit eval S)
    (fun _ _ => True) coord rng F) as (ds & os & r & H & L & _); [auto| |].
  { intros d xs g Hd _ _. destruct (comps_agree false d xs g dg ng Hd) as (X & _). eexists.
    split; [|auto]. intros r. unfold calling. rewrite X. reflexivity. }
  assert (Sm : ds = os1).
  { apply test_seq_goes in H. destruct H as (d & s & y & s1 & ds' & os' & I & C1 & Go & L' & -> & ->).
    apply test_seq_goes in T1. destruct T1 as (d2 & s2 & y2 & s3 & ds2 & os2 & I2 & C2 & Go2 & L2 & -> & ->).
    rewrite I in I2. injection I2 as <- <-. injection C2 as <- <-.
    assert (Cs : forall d r y r', (calling (ev_comp_fold tt (fun _ _ => tt)) : computor unit eval S) d r = Ok (y, r') -> r' = r).
    { intros d0 r0 y0 r0' Q. unfold calling in Q. apply bind_Ok in Q. destruct Q as (? & _ & Q). injection Q as _ <-. reflexivity. }
    apply Cs in C1. subst s1. f_equal. apply (goes_same _ _ Cs _ _ _ _ _ Go _ _ _ Go2). congruence. }
  subst os1. assert (Tx : exists ts, Forall2 (fun d t => ev_tree d = Some t /\ sound_tree t) ds ts).
  { assert (Fa : Forall (fun d => exists t, ev_tree d = Some t /\ sound_tree t) ds).
    { apply Forall_forall. intros d Hi. apply In_nth_error in Hi. destruct Hi as [i Hi]. destruct (A1 i d Hi) as (xs & g & _ & _ & g' & Hd).
      destruct Hd as (t & T & Re & Ex & _ & _ & _ & Nd & _). exists t. split; [exact T|]. split; [exact Re|].
      rewrite node_point_names by exact (proj1 (tree_reached_good t Re)). exact Nd. }
    clear - Fa. induction Fa as [|d ds (t & T) _ [ts IH]]; [exists []; constructor|]. exists (t :: ts). constructor; assumption. }
  destruct Tx as [ts Tx].
  exists ds, os, r, ts. split; [exact H|]. split; [exact L1|]. split; [|exact Tx].
  intros i d Ni. destruct (A1 i d Ni) as (xs & g & Ed & _ & Hd). exists xs, g. auto.
Qed.
End Unit.

Section Experiment.
Context {E G S C K R Y Z : Type} {CG : Coord E G} {WS : WordRng S} (eqD : forall x y : tree_data E count, {x = y} + {x <> y}) (q p : list name)
  (run : nat -> sraz_tree E count -> wm (level * list E) (tree_data E count) C K R Y) (reads : wcells C -> Y -> Z -> Prop) (pure : raz_tree E count -> Z).
Notation eval := (eval_raz E count G).
Hypothesis next : forall t, tree_reached false t -> NoDup (node_names t) ->
  exists k0, forall k hist tab st cs h, k0 <= k -> w_ran run hist tab -> tree_reads st h t ->
  exists y cs' tr tab' lg, run k h st cs tab = Ok (y, cs', tr, tab', lg) /\ reads cs' y (pure t) /\
    forall b, fst b <> p \/ ~ In (snd b) (node_names t) -> cs' b = cs b.
Lemma list_runs_answer ts : Forall sound_tree ts -> exists k0, forall k, k0 <= k -> forall hs hist cs tab, w_ran run hist tab ->
  Forall2 (fun c t => tree_reads (fst c) (snd c) t) hs ts ->
  exists ys ns cs' tab', list_runs (run k) hs cs tab = Ok (ys, ns, cs', tab') /\ Forall2 (fun y t => reads (snd y) (fst y) (pure t)) ys ts /\
    forall b, fst b <> p -> cs' b = cs b.
Proof.
  induction 1 as [|t ts (Re & Nd) _ [k2 K2]].
  - exists 0. intros k _ hs hist cs tab _ F. inversion F. exists [], [], cs, tab. split; [reflexivity|]. split; [constructor|auto].
  - destruct (next t Re Nd) as (k1 & K1). exists (k1 + k2). intros k Hk hs hist cs tab Rm F.
    inversion F as [|c t' hs' ts' Rd F']; subst. destruct (K1 k hist tab (fst c) cs (snd c) ltac:(lia) Rm Rd) as (y & cs1 & tr & tab1 & lg & G1 & G2 & G3).
    destruct (K2 k ltac:(lia) hs' _ cs1 tab1 (w_ran_more _ _ _ _ _ _ _ _ _ _ _ _ Rm G1) F') as (ys & ns & cs2 & tab2 & G4 & G5 & G6).
    exists ((y, cs1) :: ys), (length lg :: ns), cs2, tab2. cbn [list_runs]. rewrite G1. cbn [bind]. rewrite G4. split; [reflexivity|]. split; [constructor; assumption|].
    intros b D. rewrite (G6 b D). apply G3. now left.
Qed.
Theorem list_experiment size dg ng changes o (coord : G) (rng : S) : fits size dg ng changes o ->
  exists k0, forall k st cs hist tab, k0 <= k -> w_ran run hist tab ->
  exists x, w_test (run k) (sv_inc_init (Nsp := q) k size dg ng coord) (siraz_editor (Nsp := q) k o) changes rng st cs tab = Ok x /\
    length (wt_answers x) = Datatypes.S (N.to_nat changes) /\
    (forall i y cs', nth_error (wt_answers x) i = Some (y, cs') -> exists xs g t,
      edited gen_elt gen_usize size coord o i = Some (xs, g) /\ tree_reached false t /\ elts (contents t) = xs /\ reads cs' y (pure t)) /\
    (forall b, fst b <> q \/ ~ harness_name (name_bound size dg ng changes o) (snd b) -> wt_store x b = st b) /\
    forall b, fst b <> p -> wt_cells x b = cs b.
Proof.
  intros F. destruct (unit_session size dg ng changes o coord rng F) as (ds & os & r & ts & H & L1 & A1 & Tx).
  destruct (session_went eqD _ (fun k => i_rt_fold_lr (Nsp := q) eqD (fun x y : unit => ltac:(decide equality)) k (fun _ _ => tt) tt) _
    (fun Nsp => rt_lr_tracks (Fns := q) eqD (fun x y : unit => ltac:(decide equality)) (lr_node (fun _ _ => tt) (fun a _ => a)) tt) (calling (ev_comp_fold tt (fun _ _ => tt)))
    ltac:(apply calls_on_tree; reflexivity) q size dg ng changes o coord rng ds os r F H) as [k1 K1].
  destruct (list_runs_answer ts) as [k2 K2].
  { clear - Tx. induction Tx as [|d t ds ts [_ T] _ IH]; constructor; assumption. }
  exists (k1 + k2). intros k st cs hist tab Hk Rm. destruct (K1 k st ltac:(lia)) as (x & X & _ & _ & Rd & W).
  assert (Rt : Forall2 (fun c t => tree_reads (fst c) (snd c) t) (handles (se_data x)) ts).
  { clear - Rd Tx. revert ts Tx. induction Rd as [|c d xs ds (t & T & Q) _ IH]; intros ts Tx; inversion Tx as [|? t' ? ts' [T' _] Tx']; subst; constructor; [|auto].
    rewrite T in T'. injection T' as <-. exact Q. }
  destruct (K2 k ltac:(lia) _ hist cs tab Rm Rt) as (ys & ns & cs' & tab' & Ra & An & Fr).
  destruct (test_alongside (run k) _ cs tab _ _ _ _ _ _ _ _ X Ra) as (b & Tb & _ & _ & B3 & _ & B4).
  rewrite B4 in Ra. injection Ra as Ea _ Ec _. exists b. split; [exact Tb|]. rewrite Ea, Ec. split.
  { rewrite <- L1. rewrite (Forall2_len An). symmetry. exact (Forall2_len Tx). }
  split; [|split; [intros a Ha; rewrite <- B3; exact (W a Ha)|exact Fr]].
  intros i y cs1 Ny. destruct (forall2_nth _ _ _ (Forall2_flip_it An) _ _ Ny) as (t & Nt & Q).
  destruct (forall2_nth _ _ _ Tx _ _ Nt) as (d & Ni & Td & Re & _). destruct (A1 i d Ni) as (xs & g & Ed & g' & Hd).
  destruct Hd as (t' & T' & _ & Ex & _). rewrite Td in T'. injection T' as <-. exists xs, g, t. auto.
Qed.
(** ** Work *)
Lemma list_events k : forall hs hist cs tab ys ns cs' tab', w_ran run hist tab -> w_undisturbed p hist ->
  match hist with e :: _ => w_after e = cs | [] => True end -> list_runs (run k) hs cs tab = Ok (ys, ns, cs', tab') ->
  exists es, Forall2 (fun e c => w_trees e = fst c /\ w_given e = snd c) es hs /\ ns = map (fun e => length (w_entered e)) es /\
    forall es1 es2, es = es1 ++ es2 -> (exists tb, w_ran run (rev es1 ++ hist) tb) /\ w_undisturbed p (rev es1 ++ hist).
Proof.
  induction hs as [|c hs IH]; intros hist cs tab ys ns cs' tab' Rn Un La H; cbn [list_runs] in H.
  - injection H as <- <- <- <-. exists []. split; [constructor|]. split; [reflexivity|]. intros es1 es2 Q. symmetry in Q. apply app_eq_nil in Q.
    destruct Q as [-> _]. cbn [rev app]. split; [exists tab; exact Rn|exact Un].
  - apply bind_Ok in H. destruct H as ([[[[y cs1] tr] tab1] lg] & H1 & H). apply bind_Ok in H. destruct H as ([[[ys1 ns1] cs2] tab2] & H2 & H).
    injection H as <- <- <- <-. pose proof (w_ran_more _ _ _ _ _ _ _ _ _ _ _ _ Rn H1) as Rn1. set (e := WEvent (fst c) cs (snd c) y cs1 lg) in *.
    assert (Un1 : w_undisturbed p (e :: hist)).
    { cbn [w_undisturbed]. split; [exact Un|]. destruct hist as [|e0 hist]; [exact I|]. intros n. cbn [w_before e]. now rewrite La. }
    destruct (IH (e :: hist) cs1 tab1 _ _ _ _ Rn1 Un1 eq_refl H2) as (es & Fe & -> & W). exists (e :: es).
    split; [constructor; [split; reflexivity|exact Fe]|]. split; [reflexivity|]. intros es1 es2 Q. destruct es1 as [|e1 es1].
    + cbn [rev app]. split; [exists tab; exact Rn|exact Un].
    + injection Q as <- Q. cbn [rev]. rewrite <- app_assoc. cbn [app]. exact (W es1 es2 Q).
Qed.
Hypothesis again : forall t t' older pre mid mid' post, Forall (fun t => tree_reached false t) (t' :: t :: older) ->
  orderly_points (map contents (t' :: t :: older)) -> contents t = pre ++ mid ++ post -> contents t' = pre ++ mid' ++ post ->
  forall e hist tab, w_ran run (e :: hist) tab -> w_undisturbed p (e :: hist) ->
  Forall2 (fun e t => tree_reads (within q (w_trees e)) (w_given e) t) (e :: hist) (t' :: t :: older) ->
  length (w_entered e) <= 1 + 2 * (seen_from_right pre + length (marks mid') + seen_from_left 0%N post) /\
  forall b, w_after e b = w_before e b \/ fst b = p /\ exists h, In h (w_entered e) /\ st_name h = Some (snd b).
Lemma Forall2_split {X X'} (P : X -> X' -> Prop) xs : forall ys l1 b l2, Forall2 P xs ys -> ys = l1 ++ b :: l2 ->
  exists m1 a m2, xs = m1 ++ a :: m2 /\ length m1 = length l1 /\ Forall2 P m1 l1 /\ P a b.
Proof.
  intros ys l1 b l2 F ->. apply Forall2_app_inv_r in F. destruct F as (m1 & m2 & F1 & F2 & ->). inversion F2 as [|a ? m3 ? Pa _]; subst.
  exists m1, a, m3. split; [reflexivity|]. split; [exact (Forall2_len F1)|]. auto.
Qed.
Theorem list_work size dg changes o (coord : G) (rng : S) : fits size dg 1 changes o ->
  exists k0, forall k st cs, k0 <= k ->
  exists x, w_test (run k) (sv_inc_init (Nsp := q) k size dg 1 coord) (siraz_editor (Nsp := q) k o) changes rng st cs no_wentries = Ok x /\
  length (wt_calls x) = Datatypes.S (N.to_nat changes) /\
  forall i n, nth_error (wt_calls x) (Datatypes.S i) = Some n ->
  exists c c' t t' pre new post,
    nth_error (wt_given x) i = Some c /\ nth_error (wt_given x) (Datatypes.S i) = Some c' /\
    tree_reads (fst c) (snd c) t /\ tree_reads (fst c') (snd c') t' /\
    contents t = pre ++ post /\ contents t' = pre ++ new ++ post /\
    (N.of_nat (length (elts new)) = hop_batch o /\ N.of_nat (length (marks new)) <= hop_batch o / dg + 1)%N /\
    seen_from_left 0%N post <= 64 /\
    n <= 1 + 2 * (seen_from_right pre + length (marks new) + seen_from_left 0%N post).
Proof.
  intros F. destruct (unit_session size dg 1 changes o coord rng F) as (ds & os & r & ts0 & H & L1 & A1 & Tx).
  destruct (exp_trees size dg changes o _ coord rng ds os r F H) as (t0 & ts & kk & F2 & Ch & Ti).
  assert (ts0 = t0 :: ts) as ->.
  { clear - Tx F2. revert F2. generalize (t0 :: ts) as us. induction Tx as [|d t ds ts1 [T _] _ IH]; intros us F2; inversion F2 as [|? u ? us' T' F2']; subst; [reflexivity|].
    f_equal; [congruence|auto]. }
  destruct (session_sim eqD _ (fun k => i_rt_fold_lr (Nsp := q) eqD (fun x y : unit => ltac:(decide equality)) k (fun _ _ => tt) tt) _
    (fun Nsp => rt_lr_tracks (Fns := q) eqD (fun x y : unit => ltac:(decide equality)) (lr_node (fun _ _ => tt) (fun a _ => a)) tt) (calling (ev_comp_fold tt (fun _ _ => tt)))
    ltac:(apply calls_on_tree; reflexivity) (Nsp := q) size dg 1%N changes o coord rng ds os r F H) as [k1 K1].
  destruct (list_runs_answer (t0 :: ts)) as [k2 K2].
  { clear - Tx. revert Tx. generalize (t0 :: ts) as us. intros us Tx. induction Tx as [|d t ds us [_ T] _ IH]; constructor; assumption. }
  exists (k1 + k2). intros k st cs Hk. destruct (K1 k ltac:(lia) st) as (x0 & X0 & _ & _ & Rd & _ & _).
  assert (Rw : Forall2 (fun c t => tree_reads (within q (fst c)) (snd c) t) (handles (se_data x0)) (t0 :: ts)).
  { clear - Rd Tx. revert Tx. generalize (t0 :: ts) as us. induction Rd as [|c d xs ds (t & T & Q) _ IH]; intros us Tx; inversion Tx as [|? t' ? ts' [T' _] Tx']; subst; constructor; [|auto].
    rewrite T in T'. injection T' as <-. exact Q. }
  assert (Rt : Forall2 (fun c t => tree_reads (fst c) (snd c) t) (handles (se_data x0)) (t0 :: ts)).
  { eapply Forall2_weaken; [|exact Rw]. intros c t Q. exact (tree_reads_below _ _ _ _ (within_below q (fst c)) Q). }
  destruct (K2 k ltac:(lia) _ [] cs no_wentries (w_ran_none run) Rt) as (ys & ns & cs' & tab' & Ra & An & _).
  destruct (test_alongside (run k) _ cs no_wentries _ _ _ _ _ _ _ _ X0 Ra) as (b & Tb & _ & _ & _ & B5 & B4).
  exists b. split; [exact Tb|]. rewrite B4 in Ra. injection Ra as _ En _ _.
  destruct (list_events k _ [] cs no_wentries _ _ _ _ (w_ran_none run) I I B4) as (es & Fe & Ee & W).
  split; [rewrite Ee, map_length, (Forall2_len Fe), (Forall2_len Rd); exact L1|]. intros i n Ni. rewrite Ee in Ni.
  destruct Ti as (Re & Od & _ & Lv).
  assert (Rv : Forall2 (fun e t => tree_reads (within q (w_trees e)) (w_given e) t) es (t0 :: ts)).
  { clear - Fe Rw. revert Rw. generalize (t0 :: ts) as us. induction Fe as [|e c es hs [Q1 Q2] _ IH]; intros us Rw; inversion Rw; subst; constructor; [|auto]. now rewrite Q1, Q2. }
  destruct (nth_error (t0 :: ts) (Datatypes.S i)) as [t'|] eqn:Nt.
  2:{ apply nth_error_None in Nt. rewrite <- (Forall2_len Rv) in Nt. rewrite <- (map_length (fun e => length (w_entered e))) in Nt. apply nth_error_None in Nt. congruence. }
  destruct (chain_nth _ _ _ _ _ Nt Ch) as (a & Na & pre & new & post & Ca & Ct & B1 & B2).
  destruct (exp_split t0 ts i t' Nt) as (a' & before & after & Na' & X & Lb). rewrite Na in Na'. injection Na' as <-.
  destruct (forall2_nth _ _ _ Rt _ _ Na) as (c & Nc & Rc). destruct (forall2_nth _ _ _ Rt _ _ Nt) as (c' & Nc' & Rc').
  rewrite X in Re, Od, Lv. rewrite rev_app_distr in Re, Od, Lv. cbn [rev] in Re, Od, Lv. rewrite <- !app_assoc in Re, Od, Lv.
  rewrite map_app in Od. apply orderly_tail in Od. apply Forall_app in Re. destruct Re as [_ Re].
  apply Forall_app in Lv. destruct Lv as [_ Lv]. rewrite rev_app_distr in Re, Od, Lv. cbn [rev app] in Re, Od, Lv.
  exists c, c', a, t', pre, new, post. rewrite <- B5. split; [exact Nc|]. split; [exact Nc'|]. split; [exact Rc|]. split; [exact Rc'|].
  split; [exact Ca|]. split; [exact Ct|]. split; [auto|]. split.
  { apply Forall_inv_tail in Lv. apply Forall_inv in Lv. rewrite Ca in Lv. apply levels_app in Lv. destruct Lv as [_ Lp].
    exact (seen_left_top 64%N post 0%N ltac:(lia) Lp). }
  destruct (Forall2_split _ _ _ _ _ _ Rv X) as (m1 & e & m2 & -> & Lm & Fm & Pe).
  assert (Ln : nth_error (map (fun e => length (w_entered e)) (m1 ++ e :: m2)) (Datatypes.S i) = Some (length (w_entered e))).
  { rewrite map_app, nth_error_app2; rewrite map_length; [|lia]. rewrite Lm, Lb, Nat.sub_diag. reflexivity. }
  rewrite Ln in Ni. injection Ni as <-.
  destruct (W (m1 ++ [e]) m2 ltac:(rewrite <- app_assoc; reflexivity)) as [[tb Wr] Wu]. rewrite app_nil_r, rev_app_distr in Wr, Wu. cbn [rev app] in Wr, Wu.
  refine (proj1 (again a t' (rev before) pre [] new post Re Od Ca Ct e (rev m1) tb Wr Wu _)).
  constructor; [exact Pe|]. apply Forall2_rev_both in Fm. rewrite rev_app_distr in Fm. exact Fm.
Qed.
End Experiment.
