(** * Moves made by focusing, by scripts, and by whole edits. *)

From Verif Require Import Base BaseFacts Spec SpecRaz StackModel AStackModel StackProofs LevelTreeModel TreeCursorModel RazMetaModel
  RazModel TreeSpec TreeProofs CursorProofs RazView RazProofs RazUnfocus RazFocus RazScripts RazSession RazReach RazFacts RazIndex MemoSpec PathSpec RazPath
  WorkModel WorkSpec WorkFacts WorkCursor WorkProofs.

Section Raz.
Context {E M : Type} {RM : RazMeta E M}.
Notation rtree := (tree (tree_data E M)).
Notation rcursor := (cursor (tree_data E M)).
Notation atoms := (list (atom E level)).
Implicit Types (z : raz E M).

(** ** Focusing *)
Lemma focus_moves (t : raz_tree E M) i n z : good t -> w_focus t i = Ok (n, Some z) ->
  left_path z + right_path z <= n <= left_path z + right_path z + 1.
Proof.
  intros (G & _) H. unfold w_focus in H. destruct (rt_tree t) as [tr|]; [|apply wret_Ok in H; destruct H as (H & ->); injection H as <-; cbn; lia].
  wstep H.
  assert (X : match a with Some (c, _) => forest_len c <= n0 <= forest_len c + 1 | None => True end).
  { apply (wloop_inv (fun k '(c, _) => otree_ok (c_tree c) /\
        (k = forest_len c \/ k = S (forest_len c) /\ exists v, c_peek c = Some (Leaf v)))
      (fun k a => match a with Some (c, _) => forest_len c <= k <= forest_len c + 1 | None => True end)) with (n := 0) in W; [exact W| |split; [exact G|left; reflexivity]].
    clear. intros n [c i] k x (T & D) H. cbn [w_focus_step] in H. wstep H. apply free_Ok in W. destruct W as (W & ->).
    destruct a as [|l r|v].
    - apply wret_Ok in H. destruct H as (<- & ->). cbn. destruct D as [->|(-> & _)]; lia.
    - assert (n = forest_len c) as ->. { destruct D as [->|(_ & v & D)]; [reflexivity|]. rewrite D in W. discriminate. }
      clear D. destruct (c_tree c) as [t0|] eqn:Tc; [|unfold c_peek in W; rewrite Tc in W; discriminate].
      assert (t_peek t0 = Branch l r) as Pk. { unfold c_peek in W. rewrite Tc in W. injection W as ->. reflexivity. }
      destruct (tree_ok_case t0 T) as [(v & -> & _)|(lv & nm & ml & mr & tl & tr' & -> & _ & _ & _ & Kl & Kr)]; [discriminate|].
      assert (DL : forall b c', down_left_force ForceNo c = (b, c') -> c_tree c' = Some tl /\ forest_len c' = S (forest_len c)).
      { intros b c' X. unfold down_left_force in X. rewrite Tc in X. cbn in X. injection X as <- <-. split; [reflexivity|]. unfold forest_len. cbn. lia. }
      assert (DR : forall b c', down_right_force ForceNo c = (b, c') -> c_tree c' = Some tr' /\ forest_len c' = S (forest_len c)).
      { intros b c' X. unfold down_right_force in X. rewrite Tc in X. cbn in X. injection X as <- <-. split; [reflexivity|]. unfold forest_len. cbn. lia. }
      wstep H. apply free_Ok in W0. destruct W0 as (_ & ->). destruct a as [j|j| |].
      + wstep H. unfold w_down_left, w_down_left_force in W0. apply move_Ok in W0. destruct W0 as (W0 & ->). destruct a as [b c']. injection W0 as W0.
        destruct (DL _ _ W0) as (T' & F'). wstep H. apply free_Ok in W1. destruct W1 as (_ & ->). apply wret_Ok in H. destruct H as (<- & ->).
        rewrite T'. split; [exact Kl|]. left. lia.
      + wstep H. unfold w_down_right, w_down_right_force in W0. apply move_Ok in W0. destruct W0 as (W0 & ->). destruct a as [b c']. injection W0 as W0.
        destruct (DR _ _ W0) as (T' & F'). wstep H. apply free_Ok in W1. destruct W1 as (_ & ->). apply wret_Ok in H. destruct H as (<- & ->).
        rewrite T'. split; [exact Kr|]. left. lia.
      + wstep H. unfold w_down_left, w_down_left_force in W0. apply move_Ok in W0. destruct W0 as (W0 & ->). destruct a as [b c']. injection W0 as W0.
        destruct (DL _ _ W0) as (T' & F'). wstep H. apply free_Ok in W1. destruct W1 as (_ & ->). wstep H. rename a into c''. apply wret_Ok in H. destruct H as (<- & ->).
        destruct (down_right_all_reach c' tl T') as (x & X & Tx & _). pose proof (forget_Ok _ _ _ W1) as Y. rewrite down_right_all_same, X in Y. injection Y as ->.
        destruct (rmost_leaf tl Kl) as (v & pre & Rm & Hv & _). apply down_right_all_moves in W1. destruct W1 as (F1 & F2).
        rewrite Tx, Rm. split; [now apply tree_ok_leaf|]. right. split; [unfold forest_len in *; rewrite F2; lia|]. exists v. unfold c_peek. now rewrite Tx, Rm.
      + apply wret_Ok in H. destruct H as (<- & ->). exact I.
    - apply wret_Ok in H. destruct H as (<- & ->). cbn. destruct D as [->|(-> & _)]; lia. }
  destruct a as [[c j]|]; [|apply wret_Ok in H; destruct H as (H & _); discriminate].
  unfold c_split in H. destruct (c_tree c) as [t1|]; [|discriminate]. destruct (t_peek t1); try discriminate.
  wstep H. apply free_Ok in W0. destruct W0 as (_ & ->). destruct a as [x y]. apply wret_Ok in H. destruct H as (H & ->). injection H as <-.
  unfold left_path, right_path. cbn. unfold forest_len in X. lia.
Qed.

Lemma focus_left_moves (t : raz_tree E M) n z : w_focus_left t = Ok (n, z) ->
  left_path z = 0 /\ n = match rt_tree t with None => 0 | Some _ => right_path z + 1 end.
Proof.
  intros H. unfold w_focus_left in H. destruct (rt_tree t) as [tr|]; [|apply wret_Ok in H; destruct H as (<- & ->); auto].
  wstep H. apply down_left_all_moves in W. destruct W as (F1 & F2).
  unfold c_split in H. destruct (c_tree a) as [t1|]; [|discriminate]. destruct (t_peek t1); try discriminate.
  apply wret_Ok in H. destruct H as (<- & ->). unfold left_path, right_path. cbn. rewrite F2. cbn in *. split; [reflexivity|lia].
Qed.

(** ** Stepping over the sequence *)
Lemma abs_empty (s : astack E level) : as_abs s = [] <-> as_is_empty s = true.
Proof.
  split.
  - intros H. unfold as_abs in H. apply app_eq_nil in H. destruct H as (H & H'). apply (proj1 (@vatoms_nil E level (current s))) in H.
    unfold as_is_empty. rewrite H. destruct (archived s) as [[k p n]|]; [discriminate|reflexivity].
  - intros H. apply as_new_of_empty in H. now subst.
Qed.

(** The toll as the model computes it. *)
Lemma toll_left z s : sim z s ->
  toll (s_left s) (s_lnew s) = if as_is_empty (z_l_stack z) then (match l_forest (z_l_forest z) with [] => 1 | _ => 4 end) else 0.
Proof.
  intros S. destruct (as_is_empty (z_l_stack z)) eqn:Em.
  - apply abs_empty in Em. rewrite (sim_left _ _ S), (sim_ln _ _ S), Em. cbn [map app marks length].
    destruct (l_forest (z_l_forest z)) as [|[d ut] lf] eqn:L.
    + unfold left_atoms. now rewrite L.
    + destruct (left_discard _ d ut lf (sim_lc _ _ S) L) as (tl & _ & _ & _ & -> & _). reflexivity.
  - rewrite (sim_left _ _ S), (sim_ln _ _ S). destruct (as_abs (z_l_stack z)) as [|[e|m k] l] eqn:A.
    + apply abs_empty in A. congruence.
    + reflexivity.
    + reflexivity.
Qed.
Lemma toll_right z s : sim z s ->
  toll (s_right s) (s_rnew s) = if as_is_empty (z_r_stack z) then (match r_forest (z_r_forest z) with [] => 1 | _ => 4 end) else 0.
Proof.
  intros S. destruct (as_is_empty (z_r_stack z)) eqn:Em.
  - apply abs_empty in Em. rewrite (sim_right _ _ S), (sim_rn _ _ S), Em. cbn [map app marks length].
    destruct (r_forest (z_r_forest z)) as [|[d ut] lf] eqn:L.
    + unfold right_atoms. now rewrite L.
    + destruct (right_discard _ d ut lf (sim_rc _ _ S) L) as (tl & _ & _ & _ & -> & _). reflexivity.
  - rewrite (sim_right _ _ S), (sim_rn _ _ S). destruct (as_abs (z_r_stack z)) as [|[e|m k] l] eqn:A.
    + apply abs_empty in A. congruence.
    + reflexivity.
    + reflexivity.
Qed.

Lemma pop_left_moves z s n x z' : sim z s -> w_pop_left z = Ok (n, (x, z')) ->
  n + left_path z = left_path z' + toll (s_left s) (s_lnew s) /\ right_path z' = right_path z.
Proof.
  intros S H. rewrite (toll_left z s S). unfold w_pop_left in H. unfold left_path, right_path.
  destruct (as_is_empty (z_l_stack z)).
  - wstep H. unfold w_up in W. apply move_Ok in W. destruct W as (W & ->).
    pose proof (left_up _ (sim_lc _ _ S)) as U. destruct (l_forest (z_l_forest z)) as [|[d ut] lf] eqn:L.
    + rewrite U in W. injection W as <-. cbn [up_failed] in H. apply wret_Ok in H. destruct H as (H & ->). injection H as <- <-. cbn. rewrite L. auto.
    + destruct U as (c' & t' & U & K' & Lf' & T' & Lv & Nm & Tl'). rewrite U in W. injection W as <-. cbn [up_failed] in H.
      wstep H. unfold w_down_left_force in W. apply move_Ok in W. destruct W as (W & ->).
      destruct (left_discard _ d ut lf (sim_lc _ _ S) L) as (tl & Tl & _). unfold down_left_force in W. rewrite T', Tl', Tl in W. injection W as <-.
      wstep H. rename a into c1. apply down_right_all_moves in W. destruct W as (F1 & F2). cbn [l_forest] in F1. rewrite Lf' in F1.
      destruct (c_peek c1) as [[| |v]|]; try discriminate. wstep H. apply free_Ok in W. destruct W as (_ & ->). destruct a as [e st].
      apply wret_Ok in H. destruct H as (H & ->). injection H as <- <-. cbn [z_l_forest z_r_forest length]. split; [lia|reflexivity].
  - wstep H. apply free_Ok in W. destruct W as (_ & ->). destruct a as [e st]. apply wret_Ok in H. destruct H as (H & ->). injection H as <- <-. cbn. auto.
Qed.
Lemma pop_right_moves z s n x z' : sim z s -> w_pop_right z = Ok (n, (x, z')) ->
  n + right_path z = right_path z' + toll (s_right s) (s_rnew s) /\ left_path z' = left_path z.
Proof.
  intros S H. rewrite (toll_right z s S). unfold w_pop_right in H. unfold left_path, right_path.
  destruct (as_is_empty (z_r_stack z)).
  - wstep H. unfold w_up in W. apply move_Ok in W. destruct W as (W & ->).
    pose proof (right_up _ (sim_rc _ _ S)) as U. destruct (r_forest (z_r_forest z)) as [|[d ut] lf] eqn:L.
    + rewrite U in W. injection W as <-. cbn [up_failed] in H. apply wret_Ok in H. destruct H as (H & ->). injection H as <- <-. cbn. rewrite L. auto.
    + destruct U as (c' & t' & U & K' & Lf' & T' & Lv & Nm & Tl'). rewrite U in W. injection W as <-. cbn [up_failed] in H.
      wstep H. unfold w_down_right_force in W. apply move_Ok in W. destruct W as (W & ->).
      destruct (right_discard _ d ut lf (sim_rc _ _ S) L) as (tl & Tl & _). unfold down_right_force in W. rewrite T', Tl', Tl in W. injection W as <-.
      wstep H. rename a into c1. apply down_left_all_moves in W. destruct W as (F1 & F2). cbn [r_forest] in F1. rewrite Lf' in F1.
      destruct (c_peek c1) as [[| |v]|]; try discriminate. wstep H. apply free_Ok in W. destruct W as (_ & ->). destruct a as [e st].
      apply wret_Ok in H. destruct H as (H & ->). injection H as <- <-. cbn [z_l_forest z_r_forest length]. split; [lia|reflexivity].
  - wstep H. apply free_Ok in W. destruct W as (_ & ->). destruct a as [e st]. apply wret_Ok in H. destruct H as (H & ->). injection H as <- <-. cbn. auto.
Qed.

(** Peeking makes the same moves as popping. *)
Fixpoint steps_right (t : rtree) : nat := match t with Node _ _ _ _ r => match r with None => 1 | Some t2 => S (steps_right t2) end end.
Fixpoint steps_left (t : rtree) : nat := match t with Node _ _ _ l _ => match l with None => 1 | Some t1 => S (steps_left t1) end end.
Lemma down_right_all_steps (c : rcursor) t n c' : c_tree c = Some t -> w_down_right_all c = Ok (n, c') -> n = steps_right t.
Proof.
  intros T H.
  apply (wloop_inv (fun k s => exists t', c_tree s = Some t' /\ k + steps_right t' = steps_right t) (fun k _ => k = steps_right t)) with (n := 0) in H; [exact H| |eauto].
  clear. intros n s k x (t' & T & I) H. wstep H. destruct a as [b s']. apply wret_Ok in H. destruct H as (<- & ->).
  unfold w_down_right, w_down_right_force in W. apply move_Ok in W. destruct W as (W & ->). injection W as W.
  unfold down_right_force in W. rewrite T in W. destruct t' as [lv nm d l [t2|]]; cbn in W, I; injection W as <- <-.
  - exists t2. split; [reflexivity|]. lia.
  - lia.
Qed.
Lemma down_left_all_steps (c : rcursor) t n c' : c_tree c = Some t -> w_down_left_all c = Ok (n, c') -> n = steps_left t.
Proof.
  intros T H.
  apply (wloop_inv (fun k s => exists t', c_tree s = Some t' /\ k + steps_left t' = steps_left t) (fun k _ => k = steps_left t)) with (n := 0) in H; [exact H| |eauto].
  clear. intros n s k x (t' & T & I) H. wstep H. destruct a as [b s']. apply wret_Ok in H. destruct H as (<- & ->).
  unfold w_down_left, w_down_left_force in W. apply move_Ok in W. destruct W as (W & ->). injection W as W.
  unfold down_left_force in W. rewrite T in W. destruct t' as [lv nm d [t2|] r]; cbn in W, I; injection W as <- <-.
  - exists t2. split; [reflexivity|]. lia.
  - lia.
Qed.

Lemma peek_left_moves z s n x m y : sim z s -> w_peek_left z = Ok (n, x) -> w_pop_left z = Ok (m, y) -> n = m.
Proof.
  intros S H G. unfold w_peek_left in H. unfold w_pop_left in G. destruct (as_is_empty (z_l_stack z)).
  - wstep H. wstep G. unfold w_up in *. apply move_Ok in W, W0. destruct W as (W & ->), W0 as (W0 & ->). rewrite W in W0. injection W0 as <-.
    pose proof (left_up _ (sim_lc _ _ S)) as U. destruct (l_forest (z_l_forest z)) as [|[d ut] lf] eqn:L.
    + rewrite U in W. injection W as <-. apply wret_Ok in H, G. destruct H as (_ & ->), G as (_ & ->). reflexivity.
    + destruct U as (c' & t' & U & K' & Lf' & T' & Lv & Nm & Tl'). rewrite U in W. injection W as <-. cbn [up_failed] in H, G.
      destruct (left_discard _ d ut lf (sim_lc _ _ S) L) as (tl & Tl & _).
      wstep H. wstep G. unfold w_down_left, w_down_left_force in *. apply move_Ok in W, W0. destruct W as (W & ->), W0 as (W0 & ->).
      unfold down_left_force in W, W0. rewrite T', Tl', Tl in W, W0. injection W as <-. injection W0 as <-.
      wstep H. wstep G. apply (down_right_all_steps _ tl) in W; [|reflexivity]. apply (down_right_all_steps _ tl) in W0; [|reflexivity]. subst.
      destruct (c_peek a) as [[| |v]|]; try discriminate. destruct (c_peek a0) as [[| |v']|]; try discriminate.
      apply wret_Ok in H. destruct H as (_ & ->). wstep G. destruct a1. apply wret_Ok in G. destruct G as (_ & ->). apply free_Ok in W. destruct W as (_ & ->). lia.
  - apply free_Ok in H. destruct H as (_ & ->). wstep G. destruct a. apply wret_Ok in G. destruct G as (_ & ->). apply free_Ok in W. destruct W as (_ & ->). lia.
Qed.
Lemma peek_right_moves z s n x m y : sim z s -> w_peek_right z = Ok (n, x) -> w_pop_right z = Ok (m, y) -> n = m.
Proof.
  intros S H G. unfold w_peek_right in H. unfold w_pop_right in G. destruct (as_is_empty (z_r_stack z)).
  - wstep H. wstep G. unfold w_up in *. apply move_Ok in W, W0. destruct W as (W & ->), W0 as (W0 & ->). rewrite W in W0. injection W0 as <-.
    pose proof (right_up _ (sim_rc _ _ S)) as U. destruct (r_forest (z_r_forest z)) as [|[d ut] lf] eqn:L.
    + rewrite U in W. injection W as <-. apply wret_Ok in H, G. destruct H as (_ & ->), G as (_ & ->). reflexivity.
    + destruct U as (c' & t' & U & K' & Lf' & T' & Lv & Nm & Tl'). rewrite U in W. injection W as <-. cbn [up_failed] in H, G.
      destruct (right_discard _ d ut lf (sim_rc _ _ S) L) as (tl & Tl & _).
      wstep H. wstep G. unfold w_down_right, w_down_right_force in *. apply move_Ok in W, W0. destruct W as (W & ->), W0 as (W0 & ->).
      unfold down_right_force in W, W0. rewrite T', Tl', Tl in W, W0. injection W as <-. injection W0 as <-.
      wstep H. wstep G. apply (down_left_all_steps _ tl) in W; [|reflexivity]. apply (down_left_all_steps _ tl) in W0; [|reflexivity]. subst.
      destruct (c_peek a) as [[| |v]|]; try discriminate. destruct (c_peek a0) as [[| |v']|]; try discriminate.
      apply wret_Ok in H. destruct H as (_ & ->). wstep G. destruct a1. apply wret_Ok in G. destruct G as (_ & ->). apply free_Ok in W. destruct W as (_ & ->). lia.
  - apply free_Ok in H. destruct H as (_ & ->). wstep G. destruct a. apply wret_Ok in G. destruct G as (_ & ->). apply free_Ok in W. destruct W as (_ & ->). lia.
Qed.

(** ** Scripts *)
Lemma step_moves z s o n x z' : sim z s -> no_peek o -> w_step z o = Ok (n, (x, z')) ->
  n + (left_path z + right_path z) = left_path z' + right_path z' + pays s o.
Proof.
  intros S Np H. destruct o; try contradiction; cbn [w_step pays] in *.
  - apply free_Ok in H. destruct H as (H & ->). cbn in H. injection H as <- <-. unfold left_path, right_path. cbn. lia.
  - apply free_Ok in H. destruct H as (H & ->). cbn in H. injection H as <- <-. unfold left_path, right_path. cbn. lia.
  - wstep H. destruct a as [y z1]. apply wret_Ok in H. destruct H as (H & ->). injection H as <- <-. destruct (pop_left_moves _ _ _ _ _ S W). lia.
  - wstep H. destruct a as [y z1]. apply wret_Ok in H. destruct H as (H & ->). injection H as <- <-. destruct (pop_right_moves _ _ _ _ _ S W). lia.
  - apply free_Ok in H. destruct H as (H & ->). cbn in H. injection H as <- <-. unfold left_path, right_path. cbn. lia.
  - apply free_Ok in H. destruct H as (H & ->). cbn in H. injection H as <- <-. unfold left_path, right_path. cbn. lia.
Qed.

Lemma run_moves ops : forall z s n os z', sim z s -> Forall zop_ok ops -> Forall no_peek ops -> w_run z ops = Ok (n, (os, z')) ->
  n + (left_path z + right_path z) = left_path z' + right_path z' + tolls s ops.
Proof.
  induction ops as [|o ops IH]; intros z s n os z' S Fo Np H; cbn [w_run tolls] in *.
  - apply wret_Ok in H. destruct H as (H & ->). injection H as <- <-. lia.
  - inversion Fo as [|? ? Fo1 Fo2]; subst. inversion Np as [|? ? Np1 Np2]; subst.
    wstep H. destruct a as [x z1]. wstep H. destruct a as [xs z2]. apply wret_Ok in H. destruct H as (H & ->). injection H as <- <-.
    destruct (zstep_sim z s o Fo1 S) as (z1' & Z & S1 & _). pose proof (forget_Ok _ _ _ W) as Y. rewrite step_same, Z in Y. injection Y as _ ->.
    pose proof (step_moves _ _ _ _ _ _ S Np1 W). pose proof (IH _ _ _ _ _ S1 Fo2 Np2 W0). lia.
Qed.

Lemma tolls_le ops : forall s : sraz E,
  tolls s ops + 8 * (s_lnew (snd (sz_run s ops)) + s_rnew (snd (sz_run s ops))) <= 8 * length ops + 8 * (s_lnew s + s_rnew s).
Proof.
  induction ops as [|o ops IH]; intros s; cbn [tolls sz_run length snd]; [lia|].
  destruct (sz_step s o) as [x s1] eqn:St. cbn [snd]. specialize (IH s1). destruct (sz_run s1 ops) as [xs s2]. cbn [snd] in *.
  assert (pays s o + 8 * (s_lnew s1 + s_rnew s1) <= 8 + 8 * (s_lnew s + s_rnew s)); [|lia].
  assert (Tl : forall l k, toll (E := E) l k <= 4) by (intros [|[e|m k'] l] k; cbn; try lia; destruct (k =? 0); lia).
  destruct o; cbn [sz_step pays] in *.
  - injection St as <- <-. cbn. lia.
  - injection St as <- <-. cbn. lia.
  - unfold sz_pop_left in St. destruct (sp_pop (s_left s)). injection St as <- <-. cbn [s_lnew s_rnew]. pose proof (Tl (s_left s) (s_lnew s)). destruct (is_mark (s_left s)); lia.
  - unfold sz_pop_right in St. destruct (sp_pop (s_right s)). injection St as <- <-. cbn [s_lnew s_rnew]. pose proof (Tl (s_right s) (s_rnew s)). destruct (is_mark (s_right s)); lia.
  - injection St as <- <-. lia.
  - injection St as <- <-. lia.
  - unfold sz_archive_left in St. destruct (sp_archive _ _ _) as [[] ?]; injection St as <- <-; cbn; lia.
  - unfold sz_archive_right in St. destruct (sp_archive _ _ _) as [[] ?]; injection St as <- <-; cbn; lia.
Qed.
End Raz.

(** ** For reached trees *)
Section Reached.
Context {E M : Type} {RM : RazMeta E M}.

Lemma focus_runs (t : raz_tree E M) i n z : tree_reached false t -> lawful RM -> w_focus t i = Ok (n, Some z) ->
  exists p q, p ++ q = contents t /\ session z (sz_at p q) /\ sim z (sz_at p q) /\ ordered z /\
    left_path z = seen_from_right p /\ right_path z = seen_from_left 0%N q /\
    left_path z + right_path z <= n <= left_path z + right_path z + 1.
Proof.
  intros H Lw F. pose proof (forget_Ok _ _ _ F) as F'. rewrite focus_same in F'.
  destruct (focus_some t i z Lw (tree_reached_good _ H) F') as (p & q & X & S & O).
  exists p, q. split; [exact X|]. split; [now apply sim_session|]. split; [exact S|].
  assert (Or : ordered z) by (apply O, tree_reached_canonical, H). split; [exact Or|].
  destruct (sim_paths z _ S Or) as (A & B). cbn [sz_at s_lnew s_left s_rnew s_right] in A, B. rewrite beyond_0, rev_involutive in A. rewrite beyond_0 in B.
  split; [exact A|]. split; [exact B|]. eapply focus_moves; [apply (tree_reached_good _ H)|exact F].
Qed.

(** Stated for the tree and any focus with the paths known. *)
Lemma edit_moves_sim (z : raz E M) p q n1 : sim z (sz_at p q) -> ordered z ->
  n1 <= seen_from_right p + seen_from_left 0%N q + 1 ->
  forall ops n2 os z', Forall zop_ok ops -> Forall no_peek ops -> w_run z ops = Ok (n2, (os, z')) ->
  let s := snd (sz_run (sz_at p q) ops) in
  n2 + seen_from_right p + seen_from_left 0%N q = seen_left s + seen_right s + tolls (sz_at p q) ops /\
  forall n3 t', w_unfocus z' = Ok (n3, t') ->
  n3 <= seen_left s + seen_right s + 2 * seen_left_next s + 8 * (s_lnew s + s_rnew s) + 6 /\
  n1 + n2 + n3 <= 2 * (seen_left s + seen_right s + seen_left_next s) + 8 * length ops + 7.
Proof.
  intros S O N1 ops n2 os z' Fo Np R s. destruct (sim_paths z _ S O) as (PL & PR).
  cbn [sz_at s_lnew s_left s_rnew s_right] in PL, PR. rewrite beyond_0, rev_involutive in PL. rewrite beyond_0 in PR.
  destruct (zrun_sim ops z (sz_at p q) Fo S) as (z1 & R1 & S1 & O1).
  pose proof (forget_Ok _ _ _ R) as R'. rewrite run_same, R1 in R'. injection R' as _ ->.
  pose proof (run_moves ops _ _ _ _ _ S Fo Np R) as N2. fold s in S1.
  destruct (sim_paths z' s S1 (O1 O)) as (A & B). unfold seen_left, seen_right, seen_left_next.
  split; [lia|]. intros n3 t' U. pose proof (unfocus_moves z' s n3 t' S1 (O1 O) U) as N3.
  pose proof (tolls_le ops (sz_at p q)) as T. cbn [sz_at s_lnew s_rnew] in T. change (SRaz (rev p) q 0 0) with (sz_at p q) in T. fold s in T.
  split; lia.
Qed.
Theorem edit_moves (t : raz_tree E M) i n1 z : tree_reached false t -> lawful RM -> w_focus t i = Ok (n1, Some z) ->
  exists p q, p ++ q = contents t /\ session z (sz_at p q) /\
  (seen_from_right p + seen_from_left 0%N q <= n1 <= seen_from_right p + seen_from_left 0%N q + 1) /\
  forall ops n2 os z', Forall zop_ok ops -> Forall no_peek ops -> w_run z ops = Ok (n2, (os, z')) ->
  let s := snd (sz_run (sz_at p q) ops) in
  n2 + seen_from_right p + seen_from_left 0%N q = seen_left s + seen_right s + tolls (sz_at p q) ops /\
  forall n3 t', w_unfocus z' = Ok (n3, t') ->
  n3 <= seen_left s + seen_right s + 2 * seen_left_next s + 8 * (s_lnew s + s_rnew s) + 6 /\
  n1 + n2 + n3 <= 2 * (seen_left s + seen_right s + seen_left_next s) + 8 * length ops + 7.
Proof.
  intros H Lw F. destruct (focus_runs t i n1 z H Lw F) as (p & q & X & Ss & S & O & PL & PR & N1).
  exists p, q. split; [exact X|]. split; [exact Ss|]. rewrite PL, PR in N1. split; [exact N1|].
  intros ops n2 os z'. apply edit_moves_sim; [exact S|exact O|lia].
Qed.

(** The counted operations run whenever the plain ones do. *)
Lemma counts_focus (t : raz_tree E M) i o : rt_focus t i = Ok o -> exists n, w_focus t i = Ok (n, o).
Proof. intros H. apply forget_inv. now rewrite focus_same. Qed.
Lemma counts_run (z : raz E M) ops x : zrun z ops = Ok x -> exists n, w_run z ops = Ok (n, x).
Proof. intros H. apply forget_inv. now rewrite run_same. Qed.
Lemma counts_unfocus (z : raz E M) t : unfocus z = Ok t -> exists n, w_unfocus z = Ok (n, t).
Proof. intros H. apply forget_inv. now rewrite unfocus_same. Qed.
End Reached.

Section Statements.
Context {E M : Type} {RM : RazMeta E M}.

Lemma counting :
  (forall (t : raz_tree E M) i x, rt_focus t i = Ok x <-> exists n, w_focus t i = Ok (n, x)) /\
  (forall (t : raz_tree E M) z, rt_focus_left t = Ok z <-> exists n, w_focus_left t = Ok (n, z)) /\
  (forall (z : raz E M) ops x, zrun z ops = Ok x <-> exists n, w_run z ops = Ok (n, x)) /\
  (forall (z : raz E M) t, unfocus z = Ok t <-> exists n, w_unfocus z = Ok (n, t)).
Proof.
  repeat split.
  - apply counts_focus.
  - intros (n & H). rewrite <- focus_same. exact (forget_Ok _ _ _ H).
  - intros H. apply forget_inv. now rewrite focus_left_same.
  - intros (n & H). rewrite <- focus_left_same. exact (forget_Ok _ _ _ H).
  - apply counts_run.
  - intros (n & H). rewrite <- run_same. exact (forget_Ok _ _ _ H).
  - apply counts_unfocus.
  - intros (n & H). rewrite <- unfocus_same. exact (forget_Ok _ _ _ H).
Qed.

Lemma peek_moves free (z : raz E M) n x m y : raz_reached free z ->
  (w_peek_left z = Ok (n, x) -> w_pop_left z = Ok (m, y) -> n = m) /\
  (w_peek_right z = Ok (n, x) -> w_pop_right z = Ok (m, y) -> n = m).
Proof.
  intros H. destruct (reached_sim _ _ H) as (s & S). split; [now apply (peek_left_moves z s)|now apply (peek_right_moves z s)].
Qed.
End Statements.
