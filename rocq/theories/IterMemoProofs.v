(** * Proofs about the memoised [fold_out]. *)

From Verif Require Import Base BaseFacts Spec LevelTreeModel TreeCursorModel MemoModel MemoSpec MemoProofs
  CursorFacts IterMemoModel IterMemoSpec.

Section Same.
Context {A : Type} (eqA : forall x y : A, {x = y} + {x <> y}).
Lemma forest_same_eq : forall f g : list (bool * tree A), forest_same eqA f g = true <-> f = g.
Proof.
  induction f as [|[b t] f IH]; intros [|[c u] g]; cbn [forest_same].
  - tauto.
  - split; discriminate.
  - split; discriminate.
  - rewrite !andb_true_iff, IH, Bool.eqb_true_iff, tree_same_eq. split.
    + now intros [[-> ->] ->].
    + intros H. injection H as -> -> ->. auto.
Qed.
Lemma cursor_same_eq (c d : cursor A) : cursor_same eqA c d = true <-> c = d.
Proof.
  destruct c as [b f t g], d as [b' f' t' g']. unfold cursor_same. cbn [dirty l_forest c_tree r_forest].
  rewrite !andb_true_iff, !forest_same_eq, Bool.eqb_true_iff.
  assert (X : match t, t' with None, None => true | Some t, Some u => tree_same eqA t u | _, _ => false end = true <-> t = t').
  { destruct t, t'; try (split; congruence). rewrite tree_same_eq. split; congruence. }
  rewrite X. split.
  - now intros [[[-> ->] ->] ->].
  - intros H. injection H as -> -> -> ->. auto.
Qed.
End Same.

Section Fold.
Context {A R : Type} {TU : TreeUpdate A}.
Context (eqA : forall x y : A, {x = y} + {x <> y}) (eqR : forall x y : R, {x = y} + {x <> y}).
Context (bin : R -> A -> R).
Notation same := (iter_same eqA eqR).
Notation rec := (m_fold_out_fuel eqA eqR bin).
Notation pure := (fun k : cursor A * R => fold_out (fst k) (snd k) bin).
Notation good c := (c_tree c = None -> r_forest c = []).
Notation raw := (fun x : A => x).

Lemma iter_same_eq k k' : same k k' = true <-> k = k'.
Proof.
  destruct k as [c a], k' as [c' a']. unfold iter_same. cbn [fst snd]. rewrite andb_true_iff, cursor_same_eq.
  destruct (eqR a a') as [->|N]; split; intros; intuition congruence.
Qed.
Lemma iter_same_refl k : same k k = true.
Proof. now apply iter_same_eq. Qed.

Lemma right_iter_good c : right_iter c -> good c.
Proof.
  induction 1 as [c l o r E|r o r' H IH E].
  - destruct (into_iters_rest c) as (l' & r' & E' & G). rewrite E' in E. injection E as <- <- <-. apply G.
  - destruct (iter_next_rest raw r IH) as (x & c' & E' & _ & _ & G). rewrite E' in E. injection E as <- <-. exact G.
Qed.

Lemma fold_out_sound : forall n c a, good c -> length (rest raw c) < n ->
  sound_run pure (rec n c a) (pure (c, a)).
Proof.
  induction n as [|n IH]; intros c a G L; [lia|]. intros tab S. cbn [m_fold_out_fuel fst snd].
  rewrite (fold_out_rest c a bin G).
  destruct (iter_next_rest raw c G) as (x & c' & E & X & Rr & G'). rewrite E. cbn [bind].
  assert (x = hd_error (rest raw c)) as -> by (now destruct x).
  destruct (rest raw c) as [|y l] eqn:Q; cbn [hd_error].
  - split; [reflexivity|]. intros r tab' lg H. now inv H.
  - simpl in Rr, L. assert (L' : length (rest raw c') < n) by (rewrite Rr; lia).
    assert (P : pure (c', bin a y) = Ok (fold_left bin (y :: l) a)).
    { cbn [fst snd]. rewrite (fold_out_rest c' _ bin G'), Rr. reflexivity. }
    assert (B : sound_run pure (match peek_name c with
              | None => rec n c' (bin a y)
              | Some m => memo same (NForkL m) (c', bin a y) (rec n c' (bin a y)) end) (pure (c', bin a y))).
    { destruct (peek_name c) as [m|]; [apply (sound_memo same (fun k k' => proj1 (iter_same_eq k k')) pure)|]; auto. }
    destruct (B tab S) as (Ba & Bs). rewrite P in Ba.
    replace (match peek_name c with
              | None => rec n c' (bin a y) tab
              | Some m => memo same (NForkL m) (c', bin a y) (rec n c' (bin a y)) tab end)
      with ((match peek_name c with
              | None => rec n c' (bin a y)
              | Some m => memo same (NForkL m) (c', bin a y) (rec n c' (bin a y)) end) tab)
      by (now destruct (peek_name c)).
    destruct ((match peek_name c with
              | None => rec n c' (bin a y)
              | Some m => memo same (NForkL m) (c', bin a y) (rec n c' (bin a y)) end) tab) as [[[r1 tab1] lg1]|s|] eqn:F;
      cbn [bind answer] in *; try discriminate.
    split; [exact Ba|]. intros r tab' lg H. inv H. eauto.
Qed.

Lemma fold_out_history (rs : list (cursor A * R)) : (forall r a, In (r, a) rs -> right_iter r) ->
  answer (runs (fun '(r, a) => m_fold_out eqA eqR bin r a) rs no_memos) =
  all_ok (map (fun '(r, a) => fold_out r a bin) rs).
Proof.
  intros G. assert (S : sound pure (@no_memos (cursor A * R) R)) by (intros n k r H; discriminate).
  revert S. generalize (@no_memos (cursor A * R) R) as tab.
  induction rs as [|[r a] rs IH]; intros tab S; [reflexivity|]. cbn [runs map all_ok].
  assert (Gr : good r) by (apply right_iter_good; eapply G; left; reflexivity).
  destruct (fold_out_sound (iter_fuel r) r a Gr (rest_size r) tab S) as (Ba & Bs).
  cbn [fst snd] in Ba. fold (m_fold_out eqA eqR bin r a) in Ba, Bs.
  destruct (m_fold_out eqA eqR bin r a tab) as [[[x tab1] lg]|s|]; cbn [bind answer] in *;
    rewrite <- Ba; [|reflexivity..].
  specialize (IH (fun r' a' H => G r' a' (or_intror H)) tab1 (Bs _ _ _ eq_refl)). cbn [bind].
  rewrite <- IH. now destruct (runs _ rs tab1) as [[[ys tab2] lgs]|s|].
Qed.

(** ** Work *)

Lemma memo_miss n k (body : mtab (cursor A * R) R -> res (R * mtab (cursor A * R) R * list (cursor A))) :
  memo same n k body no_memos = do ' (r, tab', lg) <- body no_memos; Ok (r, memo_set tab' n k r, lg).
Proof. reflexivity. Qed.
(** A call that has run leaves the state it first met under a name in that name's entry. *)
Lemma first_run : forall n c a x tab lg ns m s, rec n c a no_memos = Ok (x, tab, lg) ->
  passes bin (c, a) (ns ++ [Some m]) s -> ~ In (Some m) ns ->
  exists r, tab (NForkL m) = Some (s, r).
Proof.
  induction n as [|n IH]; intros c a x tab lg ns m s E P N; [discriminate|]. cbn [m_fold_out_fuel] in E.
  inversion P as [|? ? e c' ns' ? Nx P' E1 E2]; subst; [now destruct ns|].
  rewrite Nx in E. cbn [bind] in E. apply bind_Ok in E as ([[x1 tab1] lg1] & E & F). inv F.
  destruct ns as [|o ns]; injection E2 as Eo En; subst.
  - rewrite Eo in E. inversion P'; subst. rewrite memo_miss in E. apply bind_Ok in E as ([[x2 tab2] lg2] & E & F). inv F. exists x.
    unfold memo_set. now destruct (name_eq_dec (NForkL m) (NForkL m)).
  - assert (No : peek_name c <> Some m) by (intros H; apply N; left; exact H).
    assert (Nn : ~ In (Some m) ns) by (intros H; apply N; right; exact H).
    destruct (peek_name c) as [m'|] eqn:Pm.
    + rewrite memo_miss in E. apply bind_Ok in E as ([[x2 tab2] lg2] & E & F). inv F.
      destruct (IH _ _ _ _ _ _ _ _ E P' Nn) as (r & Hr). exists r. unfold memo_set.
      destruct (name_eq_dec (NForkL m) (NForkL m')) as [Q|]; [|exact Hr]. congruence.
    + exact (IH _ _ _ _ _ _ _ _ E P' Nn).
Qed.

Lemma second_run : forall n c a x tab tab' lg ns m s r, rec n c a tab = Ok (x, tab', lg) ->
  passes bin (c, a) (ns ++ [Some m]) s -> tab (NForkL m) = Some (s, r) -> length lg <= S (length ns).
Proof.
  induction n as [|n IH]; intros c a x tab tab' lg ns m s r E P T; [discriminate|]. cbn [m_fold_out_fuel] in E.
  inversion P as [|? ? e c' ns' ? Nx P' E1 E2]; subst; [now destruct ns|].
  rewrite Nx in E. cbn [bind] in E. apply bind_Ok in E as ([[x1 tab1] lg1] & E & F). inv F.
  destruct ns as [|o ns]; injection E2 as Eo En; subst.
  - rewrite Eo in E. inversion P'; subst. unfold memo in E. rewrite T, iter_same_refl in E. inv E. simpl. lia.
  - cbn [length]. apply le_n_S. destruct (peek_name c) as [m'|] eqn:Pm; [|exact (IH _ _ _ _ _ _ _ _ _ _ E P' T)].
    assert (B : forall y t l, (do ' (r, tab', lg) <- rec n c' (bin a e) tab;
        Ok (r, memo_set tab' (NForkL m') (c', bin a e) r, lg)) = Ok (y, t, l) -> length l <= S (length ns)).
    { intros y t l H. apply bind_Ok in H as ([[x2 tab2] lg2] & H & F). inv F. exact (IH _ _ _ _ _ _ _ _ _ _ H P' T). }
    unfold memo in E. destruct (tab (NForkL m')) as [[k q]|]; [|exact (B _ _ _ E)].
    destruct (same (c', bin a e) k); [inv E; simpl; lia|exact (B _ _ _ E)].
Qed.

Lemma fold_out_rerun c1 a1 c2 a2 x1 x2 tab1 tab2 lg1 lg2 ns1 ns2 m s :
  m_fold_out eqA eqR bin c1 a1 no_memos = Ok (x1, tab1, lg1) ->
  m_fold_out eqA eqR bin c2 a2 tab1 = Ok (x2, tab2, lg2) ->
  passes bin (c1, a1) (ns1 ++ [Some m]) s -> ~ In (Some m) ns1 ->
  passes bin (c2, a2) (ns2 ++ [Some m]) s -> length lg2 <= S (length ns2).
Proof.
  intros E1 E2 P1 N P2. destruct (first_run _ _ _ _ _ _ _ _ _ E1 P1 N) as (r & T).
  exact (second_run _ _ _ _ _ _ _ _ _ _ _ E2 P2 T).
Qed.

(** ** Entries of other nodes *)
Lemma keeps : forall n c a tab x tab' lg, rec n c a tab = Ok (x, tab', lg) ->
  forall e, (forall c' m, In c' lg -> peek_name c' = Some m -> e <> NForkL m) -> tab' e = tab e.
Proof.
  induction n as [|n IH]; intros c a tab x tab' lg E e H; [discriminate|]. cbn [m_fold_out_fuel] in E.
  apply bind_Ok in E as ([o c'] & Nx & E). destruct o as [y|]; [|now inv E].
  apply bind_Ok in E as ([[x1 tab1] lg1] & E & F). inv F.
  assert (H1 : forall c' m, In c' lg1 -> peek_name c' = Some m -> e <> NForkL m) by (intros; eapply H; [right|]; eassumption).
  destruct (peek_name c) as [m|] eqn:Pm; [|exact (IH _ _ _ _ _ _ E e H1)].
  assert (D : e <> NForkL m) by (apply (H c m); [left; reflexivity|exact Pm]).
  assert (B : (do ' (r, tab', lg) <- rec n c' (bin a y) tab; Ok (r, memo_set tab' (NForkL m) (c', bin a y) r, lg)) = Ok (x, tab', lg1) -> tab' e = tab e).
  { intros Q. apply bind_Ok in Q as ([[x2 tab2] lg2] & Q & F). inv F. unfold memo_set. destruct (name_eq_dec e (NForkL m)) as [Z|_]; [contradiction|].
    exact (IH _ _ _ _ _ _ Q e H1). }
  unfold memo in E. destruct (tab (NForkL m)) as [[k q]|]; [|exact (B E)].
  destruct (same (c', bin a y) k); [now inv E|exact (B E)].
Qed.
Lemma runs_keep (rs : list (cursor A * R)) : forall tab xs tab' lgs, runs (fun '(r, a) => m_fold_out eqA eqR bin r a) rs tab = Ok (xs, tab', lgs) ->
  forall e, (forall lg c m, In lg lgs -> In c lg -> peek_name c = Some m -> e <> NForkL m) -> tab' e = tab e.
Proof.
  induction rs as [|[r a] rs IH]; intros tab xs tab' lgs E e H; cbn [runs] in E; [now inv E|].
  apply bind_Ok in E as ([[x1 tab1] lg1] & E1 & E). apply bind_Ok in E as ([[xs1 tab2] lgs1] & E2 & E). inv E.
  rewrite (IH _ _ _ _ E2 e); [|intros lg c m I; apply (H lg c m); now right].
  apply (keeps _ _ _ _ _ _ _ E1). intros c m. apply (H lg1 c m). now left.
Qed.
Lemma fold_out_later c1 a1 c2 a2 x1 x2 tab1 tab tab2 lg1 lg2 rs xs lgs ns1 ns2 m s :
  m_fold_out eqA eqR bin c1 a1 no_memos = Ok (x1, tab1, lg1) ->
  runs (fun '(r, a) => m_fold_out eqA eqR bin r a) rs tab1 = Ok (xs, tab, lgs) ->
  (forall lg c, In lg lgs -> In c lg -> peek_name c <> Some m) ->
  m_fold_out eqA eqR bin c2 a2 tab = Ok (x2, tab2, lg2) ->
  passes bin (c1, a1) (ns1 ++ [Some m]) s -> ~ In (Some m) ns1 ->
  passes bin (c2, a2) (ns2 ++ [Some m]) s -> length lg2 <= S (length ns2).
Proof.
  intros E1 Er Ap E2 P1 N P2. destruct (first_run _ _ _ _ _ _ _ _ _ E1 P1 N) as (r & T).
  refine (second_run _ _ _ _ _ _ _ _ _ _ _ E2 P2 _). rewrite (runs_keep _ _ _ _ _ Er); [exact T|].
  intros lg c m' I1 I2 Q D. injection D as <-. exact (Ap lg c I1 I2 Q).
Qed.
End Fold.
