(** * The experiment of the adder over stores answers as the plain one. *)

From Verif Require Import Base BaseFacts Spec SpecRaz StackModel AStackModel LevelTreeModel TreeSpec TreeProofs TreeCursorModel RazMetaModel RazModel RazView RazProofs RazScripts
  RazFrom RazReach RazIndex LevelGenModel MemoModel EvalModel EvalSpec EvalScripts EvalProofs EvalHistory AccumModel AccumScripts AccumProofs ExampleModel ExampleSpec ExampleProofs AdderProofs
  ActionModel ActionSpec ActionProofs ActionUses StoreModel StoreSpec StoreScripts StoreProofs IncModel IncProofs IncCost ExpStoreModel ExpStoreSpec ExpStoreProofs
  ListIncModel ListIncSpec AdderIncModel AdderIncSpec AdderIncProofs AdderExpModel.

(** ** Names *)
Lemma node_point_names {E M} {RM : RazMeta E M} (t : raz_tree E M) : otree_ok (rt_tree t) -> node_names t = RazIndex.point_names (contents t).
Proof.
  unfold node_names, contents. destruct (rt_tree t) as [u|]; [|reflexivity]. cbn [otree_ok oinorder]. clear t.
  induction u as [lv nm d l r IHl IHr] using tree_induction. intros O. apply tree_ok_case in O.
  destruct O as [(v & O & _)|(lv' & nm' & ml & mr & tl & tr & O & _ & _ & _ & Ol & Or)]; inv O.
  - pose proof (tree_atoms_leaf (M := M) v) as Q. unfold leaf_of in Q. rewrite Q, RazIndex.point_names_Elt. reflexivity.
  - cbn [optP] in IHl, IHr. rewrite tree_atoms_branch, RazIndex.point_names_app. specialize (IHl Ol). specialize (IHr Or). cbn [inorder].
    rewrite flat_map_app, IHl. cbn [flat_map app fst snd]. rewrite IHr, RazIndex.point_names_mark. destruct nm'; reflexivity.
Qed.

(** ** Runs on given handles *)
Section Runs.
Context {M M' G S : Type} {RM : RazMeta N M} {RM' : RazMeta token M'} (eqK : forall x y : token, {x = y} + {x <> y})
  (eqD : forall x y : tree_data N M, {x = y} + {x <> y}) (eqD' : forall x y : tree_data token M', {x = y} + {x <> y})
  (q1 q2 q3 : list name).
Notation rstore := (store (level * list N) (tree_data N M)).
Notation answers := (list (sastack N level * memory M M')).
Fixpoint adder_runs (k : nat) (hs : list (rstore * sraz_tree N M)) (m : memory M M') : res (answers * memory M M') :=
  match hs with
  | [] => Ok ([], m)
  | c :: hs =>
      do ' (y, m, _) <- adder_store eqK eqD eqD' q1 q2 q3 k (snd c) (fst c) m;
      do ' (ys, m') <- adder_runs k hs m;
      Ok ((y, m) :: ys, m')
  end.
Lemma adder_runs_app k xs : forall ys m, adder_runs k (xs ++ ys) m =
  (do ' (a, m1) <- adder_runs k xs m; do ' (b, m2) <- adder_runs k ys m1; Ok (a ++ b, m2)).
Proof.
  induction xs as [|c xs IH]; intros ys m; cbn [adder_runs app bind].
  - destruct (adder_runs k ys m) as [[b m2]| |]; reflexivity.
  - destruct (adder_store eqK eqD eqD' q1 q2 q3 k (snd c) (fst c) m) as [[[y m1] n]| |]; try reflexivity. cbn [bind]. rewrite IH.
    destruct (adder_runs k xs m1) as [[a m2]| |]; try reflexivity. cbn [bind]. destruct (adder_runs k ys m2) as [[b m3]| |]; reflexivity.
Qed.
Lemma handles_app (xs ys : list (rstore * seval_raz N M G)) : handles (xs ++ ys) = handles xs ++ handles ys.
Proof. apply flat_map_app. Qed.

Context {K R Y : Type} (comp : sraz_tree N M -> im (level * list N) (tree_data N M) K R Y) (k : nat) (m0 : memory M M').
Notation making := (sm (level * list N) (tree_data N M) (seval_raz N M G * S)).
Definition beside (x : session N M G S K R Y) (a : trial M M' G S) : Prop :=
  se_now x = tr_now a /\ se_rng x = tr_rng a /\ se_store x = tr_store a /\ adder_runs k (handles (se_data x)) m0 = Ok (tr_answers a, tr_memory a).
Lemma step_beside (make : making) ds vs lgs st tb x a ys cs m more R0 :
  s_test_step comp make ds vs lgs st tb = Ok x -> adder_runs k (handles ds) m0 = Ok (ys, m) ->
  adder_runs k (handles (se_data x) ++ more) m0 = Ok R0 -> a = trial_step eqK eqD eqD' q1 q2 q3 k make ys cs st m ->
  (exists l, handles (se_data x) = handles ds ++ l) /\ exists b, a = Ok b /\ beside x b.
Proof.
  intros H H0 Z ->. unfold s_test_step in H. apply bind_Ok in H. destruct H as ([[sv rng] st1] & H1 & H). apply bind_Ok in H.
  destruct H as ([[[y tr] tb1] lg] & H2 & H). injection H as <-. cbn [se_data] in Z |- *.
  unfold sv_compute in H2. destruct (sv_tree sv) as [h|] eqn:T; [|discriminate H2].
  assert (Hs : handles (ds ++ [(st1, sv)]) = handles ds ++ [(st1, h)]) by (rewrite handles_app; unfold handles at 2; cbn [flat_map snd fst]; rewrite T; reflexivity).
  split; [exists [(st1, h)]; exact Hs|]. rewrite Hs in Z. rewrite adder_runs_app, adder_runs_app, H0 in Z. cbn [bind adder_runs fst snd] in Z.
  unfold trial_step. rewrite H1. cbn [bind]. rewrite T. cbn [unwrap bind].
  destruct (adder_store eqK eqD eqD' q1 q2 q3 k h st1 m) as [[[y1 m1] n]| |] eqn:Q; try discriminate Z. cbn [bind].
  eexists. split; [reflexivity|]. unfold beside. cbn [se_now se_rng se_store se_data tr_now tr_rng tr_store tr_answers tr_memory].
  repeat (split; [reflexivity|]). rewrite Hs, adder_runs_app, H0. cbn [bind adder_runs fst snd]. rewrite Q. reflexivity.
Qed.
Lemma test_beside (create : S -> making) (edit : seval_raz N M G -> S -> making) changes rng st tb x R0 :
  s_test_seq create edit comp changes rng st tb = Ok x -> adder_runs k (handles (se_data x)) m0 = Ok R0 ->
  exists b, adder_test eqK eqD eqD' q1 q2 q3 k create edit changes rng st m0 = Ok b /\ beside x b.
Proof.
  intros H Z. unfold s_test_seq in H. apply bind_Ok in H. destruct H as (x1 & H1 & H).
  set (f := fun x : session N M G S K R Y => s_test_step comp (edit (se_now x) (se_rng x)) (se_data x) (se_answers x) (se_work x) (se_store x) (se_tab x)) in H.
  assert (Ex : forall n x z, times n f x = Ok z -> exists l, handles (se_data z) = handles (se_data x) ++ l).
  { clear. induction n as [|n IH]; intros x z H; cbn [times] in H; [injection H as <-; exists []; now rewrite app_nil_r|].
    apply bind_Ok in H. destruct H as (x1 & H1 & H). destruct (IH _ _ H) as [l L]. unfold f, s_test_step in H1.
    apply bind_Ok in H1. destruct H1 as ([[sv rng] st1] & _ & H1). apply bind_Ok in H1. destruct H1 as ([[[y tr] tb1] lg] & _ & H1). injection H1 as <-.
    cbn [se_data] in L. rewrite handles_app, <- app_assoc in L. eexists. exact L. }
  destruct (Ex _ _ _ H) as [l L]. rewrite L in Z.
  destruct (step_beside _ [] _ _ _ _ _ _ [] [] m0 _ _ H1 eq_refl Z eq_refl) as (_ & b & Eb & B).
  unfold adder_test. rewrite Eb. cbn [bind]. rewrite <- L in Z. clear H1 Eb L l. revert x1 b H B.
  induction (N.to_nat changes) as [|n IH]; intros x1 b H B; cbn [times] in H |- *.
  - injection H as <-. exists b. auto.
  - apply bind_Ok in H. destruct H as (x2 & H1 & H). destruct (Ex _ _ _ H) as [l L].
    destruct B as (B1 & B2 & B3 & B4). rewrite L in Z. unfold f in H1. rewrite B1, B2, B3 in H1.
    destruct (step_beside _ _ _ _ _ _ _ _ _ (tr_calls b) _ _ _ H1 B4 Z eq_refl) as (_ & b2 & Eb & B). rewrite Eb. cbn [bind]. rewrite <- L in Z.
    exact (IH _ _ H B).
Qed.
End Runs.

Lemma Forall2_len {X Y} {P : X -> Y -> Prop} {xs ys} : Forall2 P xs ys -> length xs = length ys.
Proof. induction 1; cbn [length]; congruence. Qed.
Lemma Forall2_flip_it {X Y} {P : X -> Y -> Prop} {xs ys} : Forall2 P xs ys -> Forall2 (fun y x => P x y) ys xs.
Proof. induction 1; constructor; assumption. Qed.

(** ** The answers *)
Section Answers.
Context {M M' : Type} {RM : RazMeta N M} {RM' : RazMeta token M'} (eqK : forall x y : token, {x = y} + {x <> y})
  (eqD : forall x y : tree_data N M, {x = y} + {x <> y}) (eqD' : forall x y : tree_data token M', {x = y} + {x <> y})
  (q1 q2 q3 : list name).
Definition answered (y : sastack N level * memory M M') (t : raz_tree N M) : Prop :=
  exists v a, adder_vec (elts (contents t)) = Ok v /\ adder_inc (RM' := RM') t = Ok a /\ astack_reads (m_numbers (snd y)) (fst y) a /\
    answers_as (astack_iface N) (fun lv => lv < u32_max)%N a (rev v).
Definition spoken (t : raz_tree N M) : Prop :=
  tree_reached false t /\ NoDup (node_names t) /\ levels_in (fun lv => lv < u32_max)%N (contents t) /\ Forall in_lang (elts (contents t)).
Lemma runs_answer ts : Forall spoken ts -> exists k0, forall k, k0 <= k -> forall hs m, adder_ran eqK eqD eqD' q1 q2 q3 m ->
  Forall2 (fun c t => tree_reads (fst c) (snd c) t) hs ts ->
  exists ys m', adder_runs eqK eqD eqD' q1 q2 q3 k hs m = Ok (ys, m') /\ Forall2 answered ys ts.
Proof.
  induction 1 as [|t ts (Re & Nd & Lv & La) _ [k2 K2]].
  - exists 0. intros k _ hs m _ F. inversion F. exists [], m. split; [reflexivity|constructor].
  - destruct (next_adder eqK eqD eqD' q1 q2 q3 false t Re Nd Lv) as (k1 & K1). exists (k1 + k2). intros k Hk hs m Rm F.
    inversion F as [|c t' hs' ts' Rd F']; subst. specialize (K1 k m (fst c) (snd c) ltac:(lia) Rm Rd).
    pose proof (adder_inc_sim (RM' := RM') t (proj1 (tree_reached_good t Re)) Lv) as Sm.
    destruct (adder_vec_all _ La) as (tk & _ & _ & V). rewrite V in Sm. destruct (adder_inc t) as [a|e|] eqn:Ea; [|contradiction..].
    destruct K1 as (y & m1 & n & G1 & G2 & _). destruct (K2 k ltac:(lia) hs' m1) as (ys & m2 & G3 & G4); [|exact F'|].
    { exact (adder_more eqK eqD eqD' q1 q2 q3 m k (snd c) (fst c) y m1 n Rm G1). }
    exists ((y, m1) :: ys), m2. cbn [adder_runs]. rewrite G1. cbn [bind]. rewrite G3. split; [reflexivity|]. constructor; [|exact G4].
    exists (ref_parse tk), a. auto.
Qed.
End Answers.

Section Experiment.
Context {M' G S : Type} {RM' : RazMeta token M'} {CG : Coord N G} {WS : WordRng S} (eqK : forall x y : token, {x = y} + {x <> y})
  (eqD : forall x y : tree_data N count, {x = y} + {x <> y}) (eqD' : forall x y : tree_data token M', {x = y} + {x <> y})
  (q q1 q2 q3 : list name).
Notation eval := (eval_raz N count G).
Lemma goes_same {D O S'} (edit : editor D S') (comp : computor O D S') : (forall d r y r', comp d r = Ok (y, r') -> r' = r) ->
  forall d s ds os r, goes edit comp d s ds os r -> forall ds' os' r', goes edit (fun d r => Ok (d, r)) d s ds' os' r' -> length os = length os' -> ds = os'.
Proof.
  intros C d s ds os r H. induction H as [d s|d s d1 s1 o s2 ds os s' E1 E2 _ IH]; intros ds' os' r' H' L; inversion H'; subst; try discriminate L; [reflexivity|].
  match goal with X : edit d s = Ok (?a, ?b), Y : Ok _ = Ok _ |- _ => rewrite E1 in X; injection X as <- <-; injection Y as <- <- end.
  apply C in E2. subst s2. f_equal. eapply IH; [eassumption|]. cbn [length] in L. lia.
Qed.
Theorem adder_experiment size dg ng changes o (coord : G) (rng : S) : fits size dg ng changes o -> (forall g : G, in_lang (fst (gen_elt g))) ->
  exists k0, forall k st m, k0 <= k -> adder_ran eqK eqD eqD' q1 q2 q3 m ->
  exists x, adder_test eqK eqD eqD' q1 q2 q3 k (sv_inc_init (Nsp := q) k size dg ng coord) (siraz_editor (Nsp := q) k o) changes rng st m = Ok x /\
    length (tr_answers x) = Datatypes.S (N.to_nat changes) /\
    (forall i y m', nth_error (tr_answers x) i = Some (y, m') -> exists xs g v a,
      edited gen_elt gen_usize size coord o i = Some (xs, g) /\ adder_vec xs = Ok v /\ astack_reads (m_numbers m') y a /\
      answers_as (astack_iface N) (fun lv => lv < u32_max)%N a (rev v)) /\
    forall b, fst b <> q \/ ~ harness_name (name_bound size dg ng changes o) (snd b) -> tr_store x b = st b.
Proof.
  intros F La.
  destruct (run_iraz false size dg ng changes o in_lang (fun (d : eval) (r : S) => Ok (d, r))
    (fun xs d => (exists g, harness false d xs g dg ng) /\ low d /\ Forall in_lang xs) coord rng F La) as (ds1 & os1 & r1 & T1 & L1 & A1).
  { intros d xs g Hd Lo Fx. exists d. split; [reflexivity|]. intros _. split; [exists g; exact Hd|auto]. }
  destruct (run_iraz false size dg ng changes o (fun _ => True) (calling (ev_comp_fold tt (fun _ _ => tt)) : computor unit eval S)
    (fun _ _ => True) coord rng F) as (ds & os & r & H & L & _); [auto| |].
  { intros d xs g Hd _ _. destruct (comps_agree false d xs g dg ng Hd) as (X & _). eexists.
    split; [|auto]. intros r. unfold calling. rewrite X. reflexivity. }
  assert (Sm : ds = os1).
  { apply test_seq_goes in H. destruct H as (d & s & y & s1 & ds' & os' & I & C & Go & L' & -> & ->).
    apply test_seq_goes in T1. destruct T1 as (d2 & s2 & y2 & s3 & ds2 & os2 & I2 & C2 & Go2 & L2 & -> & ->).
    rewrite I in I2. injection I2 as <- <-. injection C2 as <- <-.
    assert (Cs : forall d r y r', (calling (ev_comp_fold tt (fun _ _ => tt)) : computor unit eval S) d r = Ok (y, r') -> r' = r).
    { intros d0 r0 y0 r0' Q. unfold calling in Q. apply bind_Ok in Q. destruct Q as (? & _ & Q). injection Q as _ <-. reflexivity. }
    apply Cs in C. subst s1. f_equal. apply (goes_same _ _ Cs _ _ _ _ _ Go _ _ _ Go2). congruence. }
  subst os1. assert (Tx : exists ts, Forall2 (fun d t => ev_tree d = Some t /\ spoken t) ds ts).
  { assert (Fa : Forall (fun d => exists t, ev_tree d = Some t /\ spoken t) ds).
    { apply Forall_forall. intros d Hi. apply In_nth_error in Hi. destruct Hi as [i Hi]. destruct (A1 i d Hi) as (xs & g & _ & _ & (g' & Hd) & Lo & Fx).
      destruct Hd as (t & T & Re & Ex & _ & _ & _ & Nd & _). exists t. split; [exact T|]. split; [exact Re|].
      split; [rewrite node_point_names by exact (proj1 (tree_reached_good t Re)); exact Nd|].
      split; [|rewrite Ex; exact Fx]. eapply Forall_impl; [|exact (Lo t T)]. intros [l n]. cbn [fst]. unfold u32_max. lia. }
    clear - Fa. induction Fa as [|d ds (t & T) _ [ts IH]]; [exists []; constructor|]. exists (t :: ts). constructor; assumption. }
  destruct Tx as [ts Tx].
  destruct (session_went eqD _ (fun k => i_rt_fold_lr (Nsp := q) eqD (fun x y : unit => ltac:(decide equality)) k (fun _ _ => tt) tt) _
    (fun Nsp => rt_lr_tracks (Fns := q) eqD (fun x y : unit => ltac:(decide equality)) (lr_node (fun _ _ => tt) (fun a _ => a)) tt) (calling (ev_comp_fold tt (fun _ _ => tt)))
    ltac:(apply calls_on_tree; reflexivity) q size dg ng changes o coord rng ds os r F H) as [k1 K1].
  destruct (runs_answer (RM' := RM') eqK eqD eqD' q1 q2 q3 ts) as [k2 K2].
  { clear - Tx. induction Tx as [|d t ds ts [_ T] _ IH]; constructor; assumption. }
  exists (k1 + k2). intros k st m Hk Rm. destruct (K1 k st ltac:(lia)) as (x & X & _ & _ & Rd & W).
  assert (Rt : Forall2 (fun c t => tree_reads (fst c) (snd c) t) (handles (se_data x)) ts).
  { clear - Rd Tx. revert ts Tx. induction Rd as [|c d xs ds (t & T & Q) _ IH]; intros ts Tx; inversion Tx as [|? t' ? ts' [T' _] Tx']; subst; constructor; [|auto].
    rewrite T in T'. injection T' as <-. exact Q. }
  destruct (K2 k ltac:(lia) _ m Rm Rt) as (ys & m' & Ra & An).
  destruct (test_beside eqK eqD eqD' q1 q2 q3 _ k m _ _ _ _ _ _ _ _ X Ra) as (b & Tb & _ & _ & B3 & B4).
  rewrite B4 in Ra. injection Ra as Ea _. exists b. split; [exact Tb|]. rewrite Ea. split.
  { rewrite <- L1. rewrite (Forall2_len An). symmetry. exact (Forall2_len Tx). }
  split; [|intros a Ha; rewrite <- B3; exact (W a Ha)].
  intros i y m1 Ny. destruct (forall2_nth _ _ _ (Forall2_flip_it An) _ _ Ny) as (t & Nt & v & a & V & _ & Q1 & Q2).
  destruct (forall2_nth _ _ _ Tx _ _ Nt) as (d & Ni & Td & _). destruct (A1 i d Ni) as (xs & g & Ed & _ & (g' & Hd) & _).
  destruct Hd as (t' & T' & _ & Ex & _). rewrite Td in T'. injection T' as <-. rewrite Ex in V. exists xs, g, v, a. auto.
Qed.
End Experiment.
