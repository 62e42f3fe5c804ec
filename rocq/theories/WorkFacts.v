(** * Counting moves changes no result. *)

From Verif Require Import Base BaseFacts SpecRaz StackModel AStackModel LevelTreeModel TreeCursorModel RazMetaModel
  RazModel RazScripts WorkModel.

Lemma forget_free {A} (m : res A) : forget (free m) = m.
Proof. now destruct m. Qed.
Lemma forget_move {A} (m : res A) : forget (move m) = m.
Proof. now destruct m. Qed.
Lemma forget_bind {A B} (m : work A) (k : A -> work B) : forget (wbind m k) = bind (forget m) (fun a => forget (k a)).
Proof. destruct m as [[n a]| |]; cbn; [|reflexivity|reflexivity]. now destruct (k a) as [[n' b]| |]. Qed.
Lemma bind_ext {A B} (m : res A) (k k' : A -> res B) : (forall a, k a = k' a) -> bind m k = bind m k'.
Proof. intros H. destruct m; cbn; auto. Qed.
Lemma loop_ext {S R} n (f g : S -> res (S + R)) : (forall s, f s = g s) -> forall s, loop n f s = loop n g s.
Proof. intros H. induction n as [|n IH]; intros s; [reflexivity|]. cbn. rewrite H. destruct (g s) as [[]| |]; auto. Qed.
Lemma forget_loop {S R} n (f : S -> work (S + R)) (g : S -> res (S + R)) : (forall s, forget (f s) = g s) ->
  forall s, forget (wloop n f s) = loop n g s.
Proof.
  intros H. induction n as [|n IH]; intros s; [reflexivity|]. cbn [wloop loop]. rewrite forget_bind, H.
  destruct (g s) as [[s'|r]| |]; cbn [bind]; [apply IH|reflexivity|reflexivity|reflexivity].
Qed.

(** Runs taken apart. *)
Lemma wbind_Ok {A B} (m : work A) (k : A -> work B) n b : wbind m k = Ok (n, b) ->
  exists n1 a n2, m = Ok (n1, a) /\ k a = Ok (n2, b) /\ n = n1 + n2.
Proof.
  unfold wbind. destruct m as [[n1 a]| |]; cbn; [|discriminate|discriminate].
  destruct (k a) as [[n2 b']| |] eqn:K; cbn; [|discriminate|discriminate]. intros H. injection H as <- <-. eauto 6.
Qed.
Lemma free_Ok {A} (m : res A) n a : free m = Ok (n, a) -> m = Ok a /\ n = 0.
Proof. destruct m; cbn; intros H; inv H; auto. Qed.
Lemma move_Ok {A} (m : res A) n a : move m = Ok (n, a) -> m = Ok a /\ n = 1.
Proof. destruct m; cbn; intros H; inv H; auto. Qed.
Lemma wret_Ok {A} (x : A) n a : wret x = Ok (n, a) -> x = a /\ n = 0.
Proof. intros H. inv H. auto. Qed.
Lemma forget_Ok {A} (m : work A) n a : m = Ok (n, a) -> forget m = Ok a.
Proof. now intros ->. Qed.
Lemma forget_inv {A} (m : work A) a : forget m = Ok a -> exists n, m = Ok (n, a).
Proof. destruct m as [[n x]| |]; cbn; intros H; inv H. eauto. Qed.

(** An invariant of a loop that relates the moves so far to the state. *)
Lemma wloop_inv {S R} (Inv : nat -> S -> Prop) (Q : nat -> R -> Prop) (step : S -> work (S + R)) :
  (forall n s k x, Inv n s -> step s = Ok (k, x) ->
     match x with inl s' => Inv (n + k) s' | inr r => Q (n + k) r end) ->
  forall f s n k r, Inv n s -> wloop f step s = Ok (k, r) -> Q (n + k) r.
Proof.
  intros H. induction f as [|f IH]; intros s n k r I L; [discriminate|].
  cbn [wloop] in L. apply wbind_Ok in L. destruct L as (k1 & x & k2 & E1 & E2 & ->).
  specialize (H n s k1 x I E1). destruct x as [s'|r'].
  - rewrite Nat.add_assoc. now apply (IH s' (n + k1)).
  - apply wret_Ok in E2. destruct E2 as (<- & ->). now rewrite Nat.add_0_r.
Qed.

Ltac forgets :=
  repeat first
    [ rewrite forget_bind | rewrite forget_free | rewrite forget_move
    | apply bind_ext; intros | progress intros
    | reflexivity ].

Section Cursor.
Context {A : Type} {TU : TreeUpdate A}.
Implicit Types (c : cursor A).
Lemma up_or_panic_same c : forget (w_up_or_panic c) = up_or_panic c.
Proof. unfold w_up_or_panic, up_or_panic, w_up. rewrite forget_bind, forget_move. apply bind_ext. intros [u c']. now forgets. Qed.
Lemma down_left_all_same c : forget (w_down_left_all c) = down_left_all c.
Proof. apply forget_loop. intros s. unfold w_down_left, w_down_left_force. rewrite forget_bind, forget_move. change (down_left s) with (down_left_force ForceNo s). cbn [bind]. now destruct (down_left_force ForceNo s) as [[] ?]. Qed.
Lemma down_right_all_same c : forget (w_down_right_all c) = down_right_all c.
Proof. apply forget_loop. intros s. unfold w_down_right, w_down_right_force. rewrite forget_bind, forget_move. change (down_right s) with (down_right_force ForceNo s). cbn [bind]. now destruct (down_right_force ForceNo s) as [[] ?]. Qed.
Lemma up_all_same c : forget (w_up_all c) = up_all c.
Proof. apply forget_loop. intros s. unfold w_up. rewrite forget_bind, forget_move. apply bind_ext. now intros [u c']. Qed.
Lemma clear_right_same c : forget (w_clear_right c) = join_clear_right c.
Proof. apply forget_loop. intros s. destruct (r_forest s); [reflexivity|]. rewrite forget_bind, up_or_panic_same. now forgets. Qed.
Lemma clear_left_same c : forget (w_clear_left c) = join_clear_left c.
Proof. apply forget_loop. intros s. destruct (l_forest s); [reflexivity|]. rewrite forget_bind, up_or_panic_same. now forgets. Qed.
Lemma left_up_same lev c : forget (w_left_up lev c) = join_left_up lev c.
Proof. apply forget_loop. intros s. destruct (up_left_level s); [|reflexivity]. destruct (lev <=? l)%N; [reflexivity|]. rewrite forget_bind, up_or_panic_same. now forgets. Qed.
Lemma right_up_same lev c : forget (w_right_up lev c) = join_right_up lev c.
Proof. apply forget_loop. intros s. destruct (up_right_level s); [|reflexivity]. destruct (lev <? l)%N; [reflexivity|]. rewrite forget_bind, up_or_panic_same. now forgets. Qed.
Lemma left_down_same lev c : forget (w_left_down lev c) = join_left_down lev c.
Proof.
  apply forget_loop. intros s. destruct (peek_level s); [|reflexivity]. destruct (l <? lev)%N; [reflexivity|].
  unfold w_down_right_force. rewrite forget_bind, forget_move. cbn [bind]. destruct (down_right_force ForceYes s) as [b c']. now forgets.
Qed.
Lemma right_down_same lev c : forget (w_right_down lev c) = join_right_down lev c.
Proof.
  apply forget_loop. intros s. destruct (peek_level s); [|reflexivity]. destruct (l <=? lev)%N; [reflexivity|].
  unfold w_down_left_force. rewrite forget_bind, forget_move. cbn [bind]. destruct (down_left_force ForceYes s) as [b c']. now forgets.
Qed.
Lemma join_same lc lev nm d rc : forget (w_join lc lev nm d rc) = c_join lc lev nm d rc.
Proof.
  unfold w_join, c_join.
  rewrite forget_bind, clear_right_same. apply bind_ext. intros l1.
  rewrite forget_bind, clear_left_same. apply bind_ext. intros r1.
  rewrite forget_bind, left_up_same. apply bind_ext. intros l2.
  rewrite forget_bind, left_down_same. apply bind_ext. intros l3.
  rewrite forget_bind, right_up_same. apply bind_ext. intros r2.
  rewrite forget_bind, right_down_same. apply bind_ext. intros r3. now forgets.
Qed.
End Cursor.

Section Raz.
Context {E M : Type} {RM : RazMeta E M}.
Notation raz := (raz E M).
Implicit Types (z : raz).

Lemma focus_step_same s : forget (w_focus_step s) = focus_step s.
Proof.
  destruct s as [c i]. unfold w_focus_step, focus_step. rewrite forget_bind, forget_free. apply bind_ext. intros [|l r|v]; [reflexivity| |reflexivity].
  rewrite forget_bind, forget_free. apply bind_ext. intros [j|j| |].
  - unfold w_down_left, w_down_left_force, down_left. rewrite forget_bind, forget_move. cbn [bind]. destruct (down_left_force ForceNo c) as [b c']. now forgets.
  - unfold w_down_right, w_down_right_force, down_right. rewrite forget_bind, forget_move. cbn [bind]. destruct (down_right_force ForceNo c) as [b c']. now forgets.
  - unfold w_down_left, w_down_left_force, down_left. rewrite forget_bind, forget_move. cbn [bind]. destruct (down_left_force ForceNo c) as [b c'].
    rewrite forget_bind, forget_free. apply bind_ext. intros _. rewrite forget_bind, down_right_all_same. now forgets.
  - reflexivity.
Qed.
Lemma focus_same (t : raz_tree E M) i : forget (w_focus t i) = rt_focus t i.
Proof.
  unfold w_focus, rt_focus. destruct (rt_tree t) as [tr|]; [|reflexivity].
  rewrite forget_bind, (forget_loop _ _ focus_step focus_step_same). apply bind_ext. intros [[c j]|]; [|reflexivity].
  destruct (c_split c) as [[lc [t1|]] rc]; [|reflexivity]. destruct (t_peek t1); try reflexivity.
  rewrite forget_bind, forget_free. apply bind_ext. now intros [a b].
Qed.
Lemma focus_left_same (t : raz_tree E M) : forget (w_focus_left t) = rt_focus_left t.
Proof.
  unfold w_focus_left, rt_focus_left. destruct (rt_tree t) as [tr|]; [|reflexivity].
  rewrite forget_bind, down_left_all_same. apply bind_ext. intros c.
  destruct (c_split c) as [[lc [t1|]] rc]; [|reflexivity]. now destruct (t_peek t1).
Qed.
Lemma peek_left_same z : forget (w_peek_left z) = peek_left z.
Proof.
  unfold w_peek_left, peek_left. destruct (as_is_empty (z_l_stack z)); [|apply forget_free].
  unfold w_up. rewrite forget_bind, forget_move. apply bind_ext. intros [u c]. destruct (up_failed u); [reflexivity|].
  unfold w_down_left, w_down_left_force, down_left. rewrite forget_bind, forget_move. cbn [bind]. destruct (down_left_force ForceNo c) as [b c'].
  rewrite forget_bind, down_right_all_same. apply bind_ext. intros c1. now destruct (c_peek c1) as [[]|].
Qed.
Lemma peek_right_same z : forget (w_peek_right z) = peek_right z.
Proof.
  unfold w_peek_right, peek_right. destruct (as_is_empty (z_r_stack z)); [|apply forget_free].
  unfold w_up. rewrite forget_bind, forget_move. apply bind_ext. intros [u c]. destruct (up_failed u); [reflexivity|].
  unfold w_down_right, w_down_right_force, down_right. rewrite forget_bind, forget_move. cbn [bind]. destruct (down_right_force ForceNo c) as [b c'].
  rewrite forget_bind, down_left_all_same. apply bind_ext. intros c1. now destruct (c_peek c1) as [[]|].
Qed.
Lemma pop_left_same z : forget (w_pop_left z) = pop_left z.
Proof.
  unfold w_pop_left, pop_left. destruct (as_is_empty (z_l_stack z)).
  - unfold w_up. rewrite forget_bind, forget_move. apply bind_ext. intros [u c]. destruct (up_failed u); [reflexivity|].
    unfold w_down_left_force. rewrite forget_bind, forget_move. cbn [bind]. destruct (down_left_force ForceDiscard c) as [b c'].
    rewrite forget_bind, down_right_all_same. apply bind_ext. intros c1. destruct (c_peek c1) as [[]|]; try reflexivity.
    rewrite forget_bind, forget_free. apply bind_ext. now intros [e s].
  - rewrite forget_bind, forget_free. apply bind_ext. now intros [e s].
Qed.
Lemma pop_right_same z : forget (w_pop_right z) = pop_right z.
Proof.
  unfold w_pop_right, pop_right. destruct (as_is_empty (z_r_stack z)).
  - unfold w_up. rewrite forget_bind, forget_move. apply bind_ext. intros [u c]. destruct (up_failed u); [reflexivity|].
    unfold w_down_right_force. rewrite forget_bind, forget_move. cbn [bind]. destruct (down_right_force ForceDiscard c) as [b c'].
    rewrite forget_bind, down_left_all_same. apply bind_ext. intros c1. destruct (c_peek c1) as [[]|]; try reflexivity.
    rewrite forget_bind, forget_free. apply bind_ext. now intros [e s].
  - rewrite forget_bind, forget_free. apply bind_ext. now intros [e s].
Qed.
Lemma left_loop_same s lev nm c : forget (w_unfocus_left_loop s lev nm c) = unfocus_left_loop (E := E) (M := M) s lev nm c.
Proof.
  apply forget_loop. intros [[[[s1 l1] n1] n2] c1]. rewrite forget_bind, forget_free. apply bind_ext. intros [[[v l]|] s']; [|reflexivity].
  rewrite forget_bind, forget_free. apply bind_ext. intros lt. rewrite forget_bind, forget_free. apply bind_ext. intros lv.
  rewrite forget_bind, join_same. now forgets.
Qed.
Lemma right_loop_same s lev nm c : forget (w_unfocus_right_loop s lev nm c) = unfocus_right_loop (E := E) (M := M) s lev nm c.
Proof.
  apply forget_loop. intros [[[[s1 l1] n1] n2] c1]. rewrite forget_bind, forget_free. apply bind_ext. intros [[[v l]|] s']; [|reflexivity].
  rewrite forget_bind, forget_free. apply bind_ext. intros lt. rewrite forget_bind, forget_free. apply bind_ext. intros lv.
  rewrite forget_bind, join_same. now forgets.
Qed.
Lemma unfocus_same z : forget (w_unfocus z) = unfocus z.
Proof.
  unfold w_unfocus, unfocus.
  rewrite forget_bind, forget_free. apply bind_ext. intros [[[lnm llev] lvec] ls].
  rewrite forget_bind, forget_free. apply bind_ext. intros [[[rnm rlev] rvec] rs].
  rewrite forget_bind, forget_free. apply bind_ext. intros [[[[[[vec lnm'] llev'] ls'] rnm'] rlev'] rs'].
  rewrite forget_bind. match goal with |- bind ?m _ = bind ?m' _ => assert (m = m') as -> end.
  { destruct vec as [v|].
    - rewrite forget_bind, forget_free. apply bind_ext. intros t0. rewrite forget_bind, left_loop_same. apply bind_ext. intros c1.
      rewrite forget_bind, right_loop_same. apply bind_ext. intros c2. rewrite forget_bind, up_all_same. apply bind_ext. intros c3. now forgets.
    - unfold w_up. rewrite forget_bind, forget_move. apply bind_ext. intros [u lf]. destruct (up_failed u).
      + rewrite forget_bind, forget_move. apply bind_ext. intros [u' rf]. destruct (up_failed u'); [reflexivity|]. now forgets.
      + now forgets. }
  apply bind_ext. intros [[[tr|] lf] rf]; [|apply forget_free]. cbv zeta. unfold w_up.
  rewrite forget_bind, forget_move. apply bind_ext. intros [u lf1].
  rewrite forget_bind. match goal with |- bind ?m _ = bind ?m' _ => assert (m = m') as -> end.
  { destruct (up_failed u); [reflexivity|]. rewrite forget_bind, forget_free. apply bind_ext. intros lev.
    unfold w_down_left_force. rewrite forget_bind, forget_move. cbn [bind]. destruct (down_left_force ForceDiscard lf1) as [b lf2]. apply join_same. }
  apply bind_ext. intros jc.
  rewrite forget_bind, forget_move. apply bind_ext. intros [u' rf1].
  rewrite forget_bind. match goal with |- bind ?m _ = bind ?m' _ => assert (m = m') as -> end.
  { destruct (up_failed u'); [reflexivity|]. rewrite forget_bind, forget_free. apply bind_ext. intros lev.
    unfold w_down_right_force. rewrite forget_bind, forget_move. cbn [bind]. destruct (down_right_force ForceDiscard rf1) as [b rf2]. apply join_same. }
  apply bind_ext. intros jc'. rewrite forget_bind, up_all_same. apply bind_ext. intros jc2. apply forget_free.
Qed.
Lemma step_same z o : forget (w_step z o) = zstep z o.
Proof.
  destruct o; try apply forget_free; cbn [w_step zstep]; rewrite forget_bind.
  - rewrite pop_left_same. apply bind_ext. now intros [].
  - rewrite pop_right_same. apply bind_ext. now intros [].
  - rewrite peek_left_same. now apply bind_ext.
  - rewrite peek_right_same. now apply bind_ext.
Qed.
Lemma run_same ops : forall z, forget (w_run z ops) = zrun z ops.
Proof.
  induction ops as [|o ops IH]; intros z; [reflexivity|]. cbn [w_run zrun]. rewrite forget_bind, step_same. apply bind_ext. intros [x z1].
  rewrite forget_bind, IH. apply bind_ext. now intros [xs z2].
Qed.
End Raz.
