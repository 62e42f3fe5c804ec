(** * The work of the memoised [memo_from], for stacks made by operations. *)

From Verif Require Import Base BaseFacts Spec StackModel AStackModel StackScripts StackProofs LevelTreeModel
  RazMetaModel RazModel MemoModel MemoSpec MemoFromModel MemoFromSpec MemoFrom MemoFromWork.

Section Use.
Context {E M : Type} {RM : RazMeta E M} (eqE : forall x y : E, {x = y} + {x <> y})
  (eqD : forall x y : tree_data E M, {x = y} + {x <> y}).
Implicit Types (s w : astack E level).

Lemma stack_of_abs s l : stack_of s l -> as_abs s = l.
Proof.
  intros (ops & obs & R & <-). destruct (as_run_spec ops (as_new : astack E level) as_new_inv) as (s' & R' & A & _).
  rewrite R in R'. inv R'. exact A.
Qed.
Lemma stacks_abs (ss : list (astack E level)) ls : Forall2 stack_of ss ls -> map as_abs ss = ls.
Proof. induction 1 as [|s l ss ls H F IH]; [reflexivity|]. cbn [map]. now rewrite (stack_of_abs s l H), IH. Qed.

Lemma use_tail_bound s s' older l l' ls a b c rs T lgs t T' lg :
  Forall2 stack_of (s' :: s :: older) (l' :: l :: ls) -> orderly_points (l' :: l :: ls) ->
  l = a ++ c -> l' = b ++ c ->
  runs (m_from_at_tail eqE eqD) (rev (s :: older)) no_memos = Ok (rs, T, lgs) ->
  m_from_at_tail eqE eqD s' T = Ok (t, T', lg) ->
  length lg <= length (marks b) + seen_from_right (rev c).
Proof.
  intros F Or A B. rewrite <- (stacks_abs _ _ F) in Or. pose proof (stacks_abs _ _ F) as Q. cbn [map] in Q. injection Q as Q1 Q2 _.
  apply tail_bound with (a := a); congruence.
Qed.
Lemma use_head_bound s s' older l l' ls a b c rs T lgs t T' lg :
  Forall2 stack_of (s' :: s :: older) (l' :: l :: ls) -> orderly_points (l' :: l :: ls) ->
  l = a ++ c -> l' = b ++ c ->
  runs (m_from_at_head eqE eqD) (rev (s :: older)) no_memos = Ok (rs, T, lgs) ->
  m_from_at_head eqE eqD s' T = Ok (t, T', lg) ->
  length lg <= length (marks b) + seen_from_left 0%N c.
Proof.
  intros F Or A B. rewrite <- (stacks_abs _ _ F) in Or. pose proof (stacks_abs _ _ F) as Q. cbn [map] in Q. injection Q as Q1 Q2 _.
  apply head_bound with (a := a); congruence.
Qed.
Lemma use_tail_extend s s' older l l' ls b rs T lgs t T' lg :
  Forall2 stack_of (s' :: s :: older) (l' :: l :: ls) -> orderly_points (l' :: l :: ls) ->
  l' = b ++ l -> b <> [] ->
  runs (m_from_at_tail eqE eqD) (rev (s :: older)) no_memos = Ok (rs, T, lgs) ->
  m_from_at_tail eqE eqD s' T = Ok (t, T', lg) ->
  length lg = length (marks b) + seen_from_right (rev l).
Proof.
  intros F Or B Nb. rewrite <- (stacks_abs _ _ F) in Or. pose proof (stacks_abs _ _ F) as Q. cbn [map] in Q. injection Q as Q1 Q2 _.
  rewrite <- Q2. apply tail_extend; congruence.
Qed.
Lemma use_head_extend s s' older l l' ls b rs T lgs t T' lg :
  Forall2 stack_of (s' :: s :: older) (l' :: l :: ls) -> orderly_points (l' :: l :: ls) ->
  l' = b ++ l -> b <> [] -> (forall p, In p (marks l') -> fst p <> u32_max) ->
  runs (m_from_at_head eqE eqD) (rev (s :: older)) no_memos = Ok (rs, T, lgs) ->
  m_from_at_head eqE eqD s' T = Ok (t, T', lg) ->
  length lg = length (marks b) + seen_from_left 0%N l.
Proof.
  intros F Or B Nb Lv. rewrite <- (stacks_abs _ _ F) in Or. pose proof (stacks_abs _ _ F) as Q. cbn [map] in Q. injection Q as Q1 Q2 _.
  rewrite <- Q2. apply head_extend; try congruence. now rewrite Q1.
Qed.
Lemma use_again s s' older l ls rs T lgs t T' lg :
  Forall2 stack_of (s' :: s :: older) (l :: l :: ls) -> orderly_points (l :: l :: ls) ->
  (runs (m_from_at_tail eqE eqD) (rev (s :: older)) no_memos = Ok (rs, T, lgs) /\
   m_from_at_tail eqE eqD s' T = Ok (t, T', lg)) \/
  (runs (m_from_at_head eqE eqD) (rev (s :: older)) no_memos = Ok (rs, T, lgs) /\
   m_from_at_head eqE eqD s' T = Ok (t, T', lg)) ->
  lg = [].
Proof.
  intros F Or. rewrite <- (stacks_abs _ _ F) in Or. pose proof (stacks_abs _ _ F) as Q. cbn [map] in Q. injection Q as Q1 Q2 _.
  intros [(H0 & H1)|(H0 & H1)].
  - eapply (tail_again eqE eqD s' s older); eauto; congruence.
  - eapply (head_again eqE eqD s' s older); eauto; congruence.
Qed.
Lemma use_first s l t T lg : stack_of s l -> orderly_points [l] ->
  m_from_at_tail eqE eqD s no_memos = Ok (t, T, lg) \/ m_from_at_head eqE eqD s no_memos = Ok (t, T, lg) ->
  length lg = length (marks l).
Proof.
  intros F Or. rewrite <- (stack_of_abs s l F) in *. intros [H|H]; [eapply tail_first|eapply head_first]; eauto.
Qed.
Lemma use_unnamed ss s l rs T lgs t T' lg : stack_of s l -> (forall p, In p (marks l) -> snd p = None) ->
  (runs (m_from_at_tail eqE eqD) ss no_memos = Ok (rs, T, lgs) /\ m_from_at_tail eqE eqD s T = Ok (t, T', lg)) \/
  (runs (m_from_at_head eqE eqD) ss no_memos = Ok (rs, T, lgs) /\ m_from_at_head eqE eqD s T = Ok (t, T', lg)) ->
  length lg = length (marks l).
Proof.
  intros F Nn. rewrite <- (stack_of_abs s l F) in *. intros [(H0 & H1)|(H0 & H1)]; [eapply tail_unnamed|eapply head_unnamed]; eauto.
Qed.
End Use.
