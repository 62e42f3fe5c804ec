(** * Proofs about memoised folds: same answers, few calls. *)

From Verif Require Import Base BaseFacts LevelTreeModel TreeSpec TreeProofs MemoModel MemoSpec.

Section Same.
Context {A : Type} (eqA : forall x y : A, {x = y} + {x <> y}).
Lemma tree_same_eq (t : tree A) : forall u, tree_same eqA t u = true <-> t = u.
Proof.
  induction t as [lv nm d l r Hl Hr] using tree_induction. intros [lv' nm' d' l' r']. simpl.
  rewrite !andb_true_iff, N.eqb_eq.
  assert (X : forall o o' : option (tree A), optP (fun t => forall u, tree_same eqA t u = true <-> t = u) o ->
    (match o, o' with None, None => true | Some x, Some y => tree_same eqA x y | _, _ => false end = true <-> o = o')).
  { intros [x|] [y|] H; simpl in H; split; intros Q; try discriminate; auto.
    - f_equal. now apply H.
    - injection Q as ->. now apply H. }
  rewrite (X l l' Hl), (X r r' Hr).
  destruct (oname_eq_dec nm nm'), (eqA d d'); split; intros Q; try (decompose [and] Q; congruence).
  - injection Q as -> -> ->. repeat split; auto.
Qed.
End Same.

(** ** Answers *)
Section Memo.
Context {K R L : Type} (same : K -> K -> bool) (same_eq : forall k k', same k k' = true -> k = k').
Context (pure : K -> res R).
Definition sound (tab : mtab K R) : Prop := forall n k r, tab n = Some (k, r) -> pure k = Ok r.
(** A computation answers like [m] and keeps the table sound. *)
Definition sound_run (run : mtab K R -> res (R * mtab K R * list L)) (m : res R) : Prop :=
  forall tab, sound tab -> answer (run tab) = m /\
    forall r tab' lg, run tab = Ok (r, tab', lg) -> sound tab'.
Lemma sound_set tab n k r : sound tab -> pure k = Ok r -> sound (memo_set tab n k r).
Proof.
  intros S P m k' r' H. unfold memo_set in H. destruct (name_eq_dec m n); [|eauto]. now inv H.
Qed.
Lemma sound_memo n k body : sound_run body (pure k) -> sound_run (memo same n k body) (pure k).
Proof.
  intros B tab S. destruct (B tab S) as (Ba & Bs). unfold memo.
  assert (X : answer (do ' (r, tab', lg) <- body tab; Ok (r, memo_set tab' n k r, lg)) = pure k /\
    forall r tab' lg, (do ' (r, tab', lg) <- body tab; Ok (r, memo_set tab' n k r, lg)) = Ok (r, tab', lg) -> sound tab').
  { destruct (body tab) as [[[x tab1] lg1]|s|]; simpl in *; (split; [auto|]); intros r tab' lg H; try discriminate.
    inv H. apply sound_set; eauto. }
  destruct (tab n) as [[k' r']|] eqn:T; [|exact X].
  destruct (same k k') eqn:Q; [|exact X]. apply same_eq in Q. subst k'. split.
  - simpl. symmetry. eauto.
  - intros r tab' lg H. inv H. exact S.
Qed.
Lemma sound_memo_opt n k body : sound_run body (pure k) -> sound_run (memo_opt same n k body) (pure k).
Proof. destruct n; [apply sound_memo|auto]. Qed.
End Memo.

Section Up.
Context {A R : Type} (eqA : forall x y : A, {x = y} + {x <> y}).
Context (f : option R -> A -> level -> option name -> option R -> res R).
Notation fold := (m_fold_up_meta eqA f).
Notation pure := (t_fold_up_meta f).

Lemma fold_up_sound (t : tree A) : sound_run pure (fold t) (pure t).
Proof.
  induction t as [lv nm d l r Hl Hr] using tree_induction. intros tab S.
  assert (X : forall n (o : option (tree A)), optP (fun t => sound_run pure (fold t) (pure t)) o ->
    forall tab, sound pure tab ->
    let run := match o with
               | None => Ok (None, tab, [])
               | Some t1 => do ' (x, tab1, lg1) <- memo_opt (tree_same eqA) n t1 (fold t1) tab; Ok (Some x, tab1, lg1)
               end in
    answer run = match o with None => Ok None | Some t1 => do x <- pure t1; Ok (Some x) end /\
    forall x tab' lg, run = Ok (x, tab', lg) -> sound pure tab').
  { intros n [t1|] H tab1 S1 run; subst run; simpl in H.
    - destruct (sound_memo_opt (tree_same eqA) (fun k k' => proj1 (tree_same_eq eqA k k')) pure n t1 (fold t1) H tab1 S1) as (Ha & Hs).
      destruct (memo_opt _ n t1 (fold t1) tab1) as [[[x tab2] lg2]|s|]; cbn [answer bind] in *; rewrite <- Ha; (split; [reflexivity|]); intros; try discriminate.
      inv H0. eauto.
    - split; [reflexivity|]. intros. now inv H0. }
  cbn [m_fold_up_meta t_fold_up_meta]. destruct (X (fork_left nm) l Hl tab S) as (La & Ls).
  destruct (match l with None => Ok (None, tab, []) | Some _ => _ end) as [[[rl tab1] lg1]|s|];
    cbn [answer bind] in *; rewrite <- La; cbn [bind]; [|split; [reflexivity|discriminate]..].
  specialize (Ls _ _ _ eq_refl). destruct (X (fork_right nm) r Hr tab1 Ls) as (Ra & Rs).
  destruct (match r with None => Ok (None, tab1, []) | Some _ => _ end) as [[[rr tab2] lg2]|s|];
    cbn [answer bind] in *; rewrite <- Ra; cbn [bind]; [|split; [reflexivity|discriminate]..].
  specialize (Rs _ _ _ eq_refl).
  destruct (f rl d lv nm rr) as [x|s|]; cbn [answer bind]; (split; [reflexivity|]); intros; try discriminate.
  now inv H.
Qed.
End Up.

Section LR.
Context {A R : Type} (eqA : forall x y : A, {x = y} + {x <> y}) (eqR : forall x y : R, {x = y} + {x <> y}).
Context (f : R -> A -> level -> option name -> R).
Notation fold := (m_fold_lr_meta eqA eqR f).
Definition lr_pure (k : tree A * option name * R) : res R :=
  let '(t, s, a) := k in Ok (t_fold_lr_meta f t s a).

Lemma lr_same_eq (k k' : tree A * option name * R) : lr_same eqA eqR k k' = true -> k = k'.
Proof.
  destruct k as [[t s] a], k' as [[t' s'] a']. unfold lr_same. simpl. rewrite !andb_true_iff, tree_same_eq.
  destruct (oname_eq_dec s s'), (eqR a a'); intros [[-> ?] ?]; congruence.
Qed.

Lemma fold_lr_sound (t : tree A) : forall s a, sound_run lr_pure (fold t s a) (lr_pure (t, s, a)).
Proof.
  induction t as [lv nm d l r Hl Hr] using tree_induction. intros s a tab S.
  assert (X : forall n s a (o : option (tree A)),
    optP (fun t => forall s a, sound_run lr_pure (fold t s a) (lr_pure (t, s, a))) o ->
    forall tab, sound lr_pure tab ->
    let run := match o with
               | None => Ok (a, tab, [])
               | Some t1 => memo_opt (lr_same eqA eqR) n (t1, s, a) (fold t1 s a) tab
               end in
    answer run = Ok match o with None => a | Some t1 => t_fold_lr_meta f t1 s a end /\
    forall x tab' lg, run = Ok (x, tab', lg) -> sound lr_pure tab').
  { intros n s1 a1 [t1|] H tab1 S1 run; subst run; simpl in H.
    - apply (sound_memo_opt (lr_same eqA eqR) lr_same_eq lr_pure n (t1, s1, a1) (fold t1 s1 a1) (H s1 a1) tab1 S1).
    - split; [reflexivity|]. intros. now inv H0. }
  assert (Y : answer (
      do ' (a1, tab1, lg1) <-
        match l with
        | None => Ok (a, tab, [])
        | Some t1 => memo_opt (lr_same eqA eqR) (fork_left nm) (t1, s, a) (fold t1 s a) tab
        end;
      let a2 := f a1 d lv nm in
      do ' (a3, tab2, lg2) <-
        match r with
        | None => Ok (a2, tab1, [])
        | Some t2 => memo_opt (lr_same eqA eqR) (fork_right nm) (t2, nm, a2) (fold t2 nm a2) tab1
        end;
      Ok (a3, tab2, Node lv nm d l r :: lg1 ++ lg2)) =
    Ok (let a1 := match l with None => a | Some t1 => t_fold_lr_meta f t1 s a end in
        let a2 := f a1 d lv nm in
        match r with None => a2 | Some t2 => t_fold_lr_meta f t2 nm a2 end) /\
    forall x tab' lg, (
      do ' (a1, tab1, lg1) <-
        match l with
        | None => Ok (a, tab, [])
        | Some t1 => memo_opt (lr_same eqA eqR) (fork_left nm) (t1, s, a) (fold t1 s a) tab
        end;
      let a2 := f a1 d lv nm in
      do ' (a3, tab2, lg2) <-
        match r with
        | None => Ok (a2, tab1, [])
        | Some t2 => memo_opt (lr_same eqA eqR) (fork_right nm) (t2, nm, a2) (fold t2 nm a2) tab1
        end;
      Ok (a3, tab2, Node lv nm d l r :: lg1 ++ lg2)) = Ok (x, tab', lg) -> sound lr_pure tab').
  { destruct (X (fork_left nm) s a l Hl tab S) as (La & Ls).
    destruct (match l with None => Ok (a, tab, []) | Some _ => _ end) as [[[a1 tab1] lg1]|e|];
      cbn [answer bind] in *; try discriminate. injection La as ->. cbv zeta.
    specialize (Ls _ _ _ eq_refl).
    set (a1 := match l with None => a | Some t1 => _ end). set (a2 := f a1 d lv nm).
    destruct (X (fork_right nm) nm a2 r Hr tab1 Ls) as (Ra & Rs).
    destruct (match r with None => Ok (a2, tab1, []) | Some _ => _ end) as [[[a3 tab2] lg2]|e|];
      cbn [answer bind] in *; try discriminate. injection Ra as ->. specialize (Rs _ _ _ eq_refl).
    split; [reflexivity|]. intros x tab' lg H. now inv H. }
  unfold lr_pure. cbn [m_fold_lr_meta t_fold_lr_meta].
  destruct l as [tl|], r as [tr|]; try exact Y.
  split; [reflexivity|]. intros x tab' lg H. now inv H.
Qed.
End LR.

(** Histories. *)
Section Runs.
Context {X K R Y L : Type} (run : X -> mtab K R -> res (Y * mtab K R * list L)) (pure : K -> res R) (ans : X -> res Y).
Hypothesis run_sound : forall x tab, sound pure tab -> answer (run x tab) = ans x /\
  forall r tab' lg, run x tab = Ok (r, tab', lg) -> sound pure tab'.
Lemma runs_sound xs : forall tab, sound pure tab ->
  answer (runs run xs tab) = all_ok (map ans xs) /\
  forall rs tab' lgs, runs run xs tab = Ok (rs, tab', lgs) -> sound pure tab'.
Proof.
  induction xs as [|x xs IH]; intros tab S; simpl.
  - split; [reflexivity|]. intros. now inv H.
  - destruct (run_sound x tab S) as (Ha & Hs).
    destruct (run x tab) as [[[y tab1] lg]|s|]; cbn [answer bind] in *; rewrite <- Ha; cbn [bind];
      [|split; [reflexivity|discriminate]..].
    destruct (IH tab1 (Hs _ _ _ eq_refl)) as (Ia & Is).
    destruct (runs run xs tab1) as [[[ys tab2] lgs]|s|]; cbn [answer bind] in *; rewrite <- Ia; cbn [bind];
      (split; [reflexivity|]); intros; try discriminate. inv H. eauto.
Qed.
Lemma no_memos_sound : sound pure no_memos.
Proof. intros n k r H. discriminate. Qed.
End Runs.

Lemma t_map_fold {A B} (f : A -> level -> option name -> option (tree B) -> option (tree B) -> res B) (t : tree A) :
  t_map f t = t_fold_up_meta (fun l d lv nm r =>
    do d' <- f d lv nm l r; unwrap "map: Tree::new" (tree_new lv nm d' l r)) t.
Proof.
  induction t as [lv nm d l r Hl Hr] using tree_induction. simpl.
  destruct l as [tl|], r as [tr|]; simpl in *; rewrite ?Hl, ?Hr; reflexivity.
Qed.
