(** * Proofs about memoised folds: what runs again after a change. *)

From Verif Require Import Base BaseFacts LevelTreeModel TreeSpec TreeProofs MemoModel MemoSpec MemoProofs.

Section Trees.
Context {A : Type}.
Implicit Types (s t u : tree A).

Definition osubtrees (o : option (tree A)) : list (tree A) := match o with None => [] | Some t => subtrees t end.
Definition onames (o : option (tree A)) : list name := match o with None => [] | Some t => names t end.
Lemma subtrees_eq lv nm d (l r : option (tree A)) :
  subtrees (Node lv nm d l r) = Node lv nm d l r :: osubtrees l ++ osubtrees r.
Proof. reflexivity. Qed.
Lemma names_eq lv nm d (l r : option (tree A)) :
  names (Node lv nm d l r) = match nm with None => [] | Some n => [n] end ++ onames l ++ onames r.
Proof. reflexivity. Qed.
Lemma subtrees_self t : In t (subtrees t).
Proof. destruct t. left. reflexivity. Qed.
Lemma subtrees_trans t : forall s u, In s (subtrees t) -> In u (subtrees s) -> In u (subtrees t).
Proof.
  induction t as [lv nm d l r Hl Hr] using tree_induction. intros s u [<-|H] U; [exact U|].
  change (In s (osubtrees l ++ osubtrees r)) in H. rewrite subtrees_eq. right. apply in_app_or in H. apply in_or_app.
  destruct H as [H|H]; [left|right].
  - destruct l; simpl in *; [eauto|contradiction].
  - destruct r; simpl in *; [eauto|contradiction].
Qed.
Lemma subtrees_names t : forall s n, In s (subtrees t) -> In n (names s) -> In n (names t).
Proof.
  induction t as [lv nm d l r Hl Hr] using tree_induction. intros s n [<-|H] U; [exact U|].
  change (In s (osubtrees l ++ osubtrees r)) in H. rewrite names_eq. apply in_or_app. right.
  apply in_app_or in H. apply in_or_app. destruct H as [H|H]; [left|right].
  - destruct l; simpl in *; [eauto|contradiction].
  - destruct r; simpl in *; [eauto|contradiction].
Qed.

Lemma NoDup_app_inv {X} (a b : list X) : NoDup (a ++ b) ->
  NoDup a /\ NoDup b /\ forall x, In x a -> In x b -> False.
Proof.
  induction a as [|x a IH]; simpl; intros H.
  - repeat split; auto. constructor.
  - inv H. destruct (IH H3) as (Ha & Hb & D). repeat split; auto.
    + constructor; auto. intros Q. apply H2, in_or_app. auto.
    + intros y [->|Q] Qb; [apply H2, in_or_app; auto|eauto].
Qed.

(** The two branches of the node with a name. *)
Definition edge t (m : name) (l r : tree A) : Prop :=
  exists lv d, In (Node lv (Some m) d (Some l) (Some r)) (subtrees t).
Lemma edge_name t m l r : edge t m l r -> In m (names t).
Proof. intros (lv & d & H). eapply subtrees_names; [exact H|]. left. reflexivity. Qed.
Lemma edge_unique t m l r l' r' : NoDup (names t) -> edge t m l r -> edge t m l' r' -> l = l' /\ r = r'.
Proof.
  revert l r l' r'. induction t as [lv nm d ol or Hl Hr] using tree_induction. intros l r l' r' N.
  rewrite names_eq in N. apply NoDup_app_inv in N. destruct N as (N0 & N1 & D0).
  apply NoDup_app_inv in N1. destruct N1 as (Nl & Nr & D1).
  assert (X : forall l r, edge (Node lv nm d ol or) m l r ->
     (nm = Some m /\ ol = Some l /\ or = Some r) \/
     (In m (onames ol) /\ exists t1, ol = Some t1 /\ edge t1 m l r) \/
     (In m (onames or) /\ exists t1, or = Some t1 /\ edge t1 m l r)).
  { intros x y (lv' & d' & H). rewrite subtrees_eq in H. destruct H as [H|H].
    - injection H as -> -> -> -> ->. auto.
    - right. apply in_app_or in H. destruct H as [H|H]; [left|right].
      + destruct ol as [t1|]; [|contradiction]. simpl. assert (E : edge t1 m x y) by (eexists _, _; exact H).
        split; [eapply edge_name; exact E|eauto].
      + destruct or as [t1|]; [|contradiction]. simpl. assert (E : edge t1 m x y) by (eexists _, _; exact H).
        split; [eapply edge_name; exact E|eauto]. }
  intros E E'. apply X in E. apply X in E'.
  destruct E as [(-> & E1 & E2)|[(I1 & t1 & -> & E1)|(I1 & t1 & -> & E1)]];
  destruct E' as [(Z & E1' & E2')|[(I1' & t1' & E0 & E1')|(I1' & t1' & E0 & E1')]];
  try (injection E0 as <-); try (subst nm).
  - split; congruence.
  - elim (D0 m); [left; reflexivity|apply in_or_app; auto].
  - elim (D0 m); [left; reflexivity|apply in_or_app; auto].
  - elim (D0 m); [left; reflexivity|apply in_or_app; auto].
  - simpl in Hl. eapply Hl; eauto.
  - elim (D1 m); auto.
  - elim (D0 m); [left; reflexivity|apply in_or_app; auto].
  - elim (D1 m); auto.
  - simpl in Hr. eapply Hr; eauto.
Qed.

(** A named node has two branches. *)
Lemma inner_named_sub t s : inner_named t -> In s (subtrees t) -> inner_named s.
Proof. intros H I lv nm d l r Q. eapply H. eapply subtrees_trans; eauto. Qed.
Lemma name_edge t m : inner_named t -> In m (names t) -> exists l r, edge t m l r.
Proof.
  induction t as [lv nm d l r Hl Hr] using tree_induction. intros I H. rewrite names_eq in H.
  apply in_app_or in H. destruct H as [H|H].
  - destruct nm as [n|]; [|contradiction]. destruct H as [->|[]].
    pose proof (I _ _ _ _ _ (subtrees_self _)) as Q. destruct l as [tl|], r as [tr|]; simpl in Q; try tauto.
    exists tl, tr, lv, d. apply subtrees_self.
  - assert (X : forall o, (o = l \/ o = r) -> forall t1, o = Some t1 -> In t1 (subtrees (Node lv nm d l r))).
    { intros o [-> | ->] t1 ->; rewrite subtrees_eq; right; apply in_or_app; [left|right]; apply subtrees_self. }
    apply in_app_or in H. destruct H as [H|H].
    + destruct l as [tl|]; [|contradiction]. pose proof (X _ (or_introl eq_refl) _ eq_refl) as Q.
      destruct (Hl (inner_named_sub _ _ I Q) H) as (a & b & lv' & d' & E). exists a, b, lv', d'.
      eapply subtrees_trans; eauto.
    + destruct r as [tr|]; [|contradiction]. pose proof (X _ (or_intror eq_refl) _ eq_refl) as Q.
      destruct (Hr (inner_named_sub _ _ I Q) H) as (a & b & lv' & d' & E). exists a, b, lv', d'.
      eapply subtrees_trans; eauto.
Qed.
Lemma inner_named_case t : inner_named t ->
  (exists lv d, t = Node lv None d None None) \/
  (exists lv n d l r, t = Node lv (Some n) d (Some l) (Some r) /\ inner_named l /\ inner_named r).
Proof.
  destruct t as [lv nm d l r]. intros I. pose proof (I _ _ _ _ _ (subtrees_self _)) as Q.
  destruct nm as [n|].
  - destruct l as [tl|], r as [tr|]; try tauto. right. exists lv, n, d, tl, tr. split; [reflexivity|].
    split; eapply inner_named_sub; try exact I; rewrite subtrees_eq; right; apply in_or_app;
      [left|right]; apply subtrees_self.
  - destruct Q as [-> ->]. left. eauto.
Qed.
End Trees.

Section Cost.
Context {A R : Type} (eqA : forall x y : A, {x = y} + {x <> y}).
Context (f : option R -> A -> level -> option name -> option R -> res R).
Notation fold := (m_fold_up_meta eqA f).
Notation tab := (mtab (tree A) R).
Notation call n t := (memo (tree_same eqA) n t (fold t)).
Implicit Types (s t u : tree A) (T : tab).

(** The entries of the node [m]. *)
Definition entries T (m : name) (l r : tree A) : Prop :=
  (exists x, T (NForkL m) = Some (l, x)) /\ (exists x, T (NForkR m) = Some (r, x)).
Definition covers T t : Prop := forall m l r, edge t m l r -> entries T m l r.
Definition no_entries T (m : name) : Prop := T (NForkL m) = None /\ T (NForkR m) = None.

(** Only entries under forks of the names of [t] change. *)
Definition only (N : list name) T T' : Prop :=
  forall n, T' n = T n \/ exists m, In m N /\ (n = NForkL m \/ n = NForkR m).
Lemma only_refl N T : only N T T.
Proof. intros n. auto. Qed.
Lemma only_trans N T T1 T2 : only N T T1 -> only N T1 T2 -> only N T T2.
Proof.
  intros H1 H2 n. destruct (H2 n) as [E|E]; [|auto]. destruct (H1 n) as [E'|E']; [|auto]. left. congruence.
Qed.
Lemma only_sub N N' T T' : (forall x, In x N -> In x N') -> only N T T' -> only N' T T'.
Proof. intros S H n. destruct (H n) as [E|(m & I & E)]; [auto|]. right. eauto. Qed.

Lemma memo_case n t T r T' lg : call n t T = Ok (r, T', lg) ->
  (T n = Some (t, r) /\ T' = T /\ lg = []) \/
  (~ (exists x, T n = Some (t, x)) /\ exists T1, fold t T = Ok (r, T1, lg) /\ T' = memo_set T1 n t r).
Proof.
  unfold memo. intros H. destruct (T n) as [[k x]|] eqn:Q.
  - destruct (tree_same eqA t k) eqn:S.
    + apply tree_same_eq in S. subst k. inv H. auto.
    + right. split.
      * intros (y & Y). injection Y as -> _. assert (tree_same eqA t t = true) by now apply tree_same_eq. congruence.
      * apply bind_Ok in H. destruct H as ([[x1 T1] lg1] & H & Z). inv Z. eauto.
  - right. split; [intros (y & Y); discriminate|].
    apply bind_Ok in H. destruct H as ([[x1 T1] lg1] & H & Z). inv Z. eauto.
Qed.
Lemma fold_case lv n d l r T x T' lg : fold (Node lv (Some n) d (Some l) (Some r)) T = Ok (x, T', lg) ->
  exists xl T1 lg1 xr lg2, call (NForkL n) l T = Ok (xl, T1, lg1) /\ call (NForkR n) r T1 = Ok (xr, T', lg2) /\
    lg = Node lv (Some n) d (Some l) (Some r) :: lg1 ++ lg2.
Proof.
  cbn [m_fold_up_meta memo_opt fork_left fork_right option_map]. intros H.
  apply bind_Ok in H. destruct H as ([[rl T1] lg1] & H1 & H).
  apply bind_Ok in H1. destruct H1 as ([[xl T1'] lg1'] & H1 & Z). inv Z.
  apply bind_Ok in H. destruct H as ([[rr T2] lg2] & H2 & H).
  apply bind_Ok in H2. destruct H2 as ([[xr T2'] lg2'] & H2 & Z). inv Z.
  apply bind_Ok in H. destruct H as (y & _ & Z). inv Z. eauto 10.
Qed.

Lemma set_same T n k x : memo_set T n k x n = Some (k, x).
Proof. unfold memo_set. destruct (name_eq_dec n n); congruence. Qed.
Lemma set_other T n k x m : m <> n -> memo_set T n k x m = T m.
Proof. unfold memo_set. intros. destruct (name_eq_dec m n); congruence. Qed.

Lemma fold_only t : inner_named t -> forall T x T' lg, fold t T = Ok (x, T', lg) -> only (names t) T T'.
Proof.
  induction t as [lv nm d l r Hl Hr] using tree_induction. intros I T x T' lg H.
  destruct (inner_named_case _ I) as [(lv' & d' & Q)|(lv' & n & d' & tl & tr & Q & Il & Ir)]; inv Q.
  - cbn [m_fold_up_meta bind] in H. apply bind_Ok in H. destruct H as (y & _ & Z). inv Z. apply only_refl.
  - simpl in Hl, Hr. apply fold_case in H. destruct H as (xl & T1 & lg1 & xr & lg2 & H1 & H2 & ->).
    assert (X : forall b t1 T x T' lg, (forall T x T' lg, fold t1 T = Ok (x, T', lg) -> only (names t1) T T') ->
      call (if b : bool then NForkL n else NForkR n) t1 T = Ok (x, T', lg) -> only (n :: names t1) T T').
    { intros b t1 T2 y T3 lg3 F C. apply memo_case in C. destruct C as [(_ & -> & _)|(_ & T4 & F4 & ->)]; [apply only_refl|].
      intros m. unfold memo_set. destruct (name_eq_dec m _) as [->|N].
      - right. exists n. split; [left; reflexivity|]. destruct b; auto.
      - destruct (F _ _ _ _ F4 m) as [E|(m' & I' & E)]; [auto|]. right. exists m'. split; [right; exact I'|auto]. }
    eapply only_trans.
    + eapply only_sub; [|apply (X true _ _ _ _ _ (Hl Il) H1)]. intros z [->|Z]; [left; reflexivity|].
      change (In z (n :: names tl ++ names tr)). right. apply in_or_app. auto.
    + eapply only_sub; [|apply (X false _ _ _ _ _ (Hr Ir) H2)]. intros z [->|Z]; [left; reflexivity|].
      change (In z (n :: names tl ++ names tr)). right. apply in_or_app. auto.
Qed.
Lemma call_only b n t : inner_named t -> forall T x T' lg,
  call (if b : bool then NForkL n else NForkR n) t T = Ok (x, T', lg) -> only (n :: names t) T T'.
Proof.
  intros I T x T' lg C. apply memo_case in C. destruct C as [(_ & -> & _)|(_ & T4 & F4 & ->)]; [apply only_refl|].
  intros m. unfold memo_set. destruct (name_eq_dec m _) as [->|N].
  - right. exists n. split; [left; reflexivity|]. destruct b; auto.
  - destruct (fold_only _ I _ _ _ _ F4 m) as [E|(m' & I' & E)]; [auto|].
    right. exists m'. split; [right; exact I'|auto].
Qed.
Lemma only_keeps N T T' m : only N T T' -> ~ In m N -> T' (NForkL m) = T (NForkL m) /\ T' (NForkR m) = T (NForkR m).
Proof.
  intros H I. split.
  - destruct (H (NForkL m)) as [E|(m' & I' & [E|E])]; auto; try discriminate. injection E as ->. contradiction.
  - destruct (H (NForkR m)) as [E|(m' & I' & [E|E])]; auto; try discriminate. injection E as ->. contradiction.
Qed.

(** ** The tree computed on before *)
Context (old : tree A) (old_nodup : NoDup (names old)) (old_inner : inner_named old).
(** Each name of the new tree has the entries of the old tree or none. *)
Definition ready T (m : name) : Prop :=
  (exists l r, edge old m l r /\ entries T m l r) \/ (~ In m (names old) /\ no_entries T m).
Lemma only_ready N T T' m : only N T T' -> ~ In m N -> ready T m -> ready T' m.
Proof.
  intros H I Q. destruct (only_keeps _ _ _ _ H I) as (EL & ER). unfold ready, entries, no_entries in *.
  rewrite EL, ER. exact Q.
Qed.
Lemma only_entries N T T' m l r : only N T T' -> ~ In m N -> entries T m l r -> entries T' m l r.
Proof.
  intros H I Q. destruct (only_keeps _ _ _ _ H I) as (EL & ER). unfold entries in *. rewrite EL, ER. exact Q.
Qed.

Lemma ready_covers T s : (forall m, In m (names s) -> ready T m) -> In s (subtrees old) -> covers T s.
Proof.
  intros Q I m l r E. assert (E' : edge old m l r).
  { destruct E as (lv & d & E). exists lv, d. eapply subtrees_trans; eauto. }
  destruct (Q m (edge_name _ _ _ _ E)) as [(l' & r' & E2 & N)|(X & _)].
  - destruct (edge_unique _ _ _ _ _ _ old_nodup E' E2) as [-> ->]. exact N.
  - elim X. eapply edge_name; eauto.
Qed.
(** The child found under a fork of a ready name is a branch of the old tree. *)
Lemma ready_hit T m b s x : ready T m -> T (if b : bool then NForkL m else NForkR m) = Some (s, x) -> In s (subtrees old).
Proof.
  intros [(l & r & (lv & d & E) & (xl & EL) & (xr & ER))|(_ & EL & ER)] H.
  - eapply subtrees_trans; [exact E|]. rewrite subtrees_eq. right. apply in_or_app.
    destruct b; [left; rewrite H in EL|right; rewrite H in ER]; [injection EL as -> _|injection ER as -> _];
      apply subtrees_self.
  - destruct b; congruence.
Qed.

Definition is_new s : bool := has_children s && negb (existsb (tree_same eqA s) (subtrees old)).
Definition news t : nat := length (filter is_new (subtrees t)).
Lemma is_old s : existsb (tree_same eqA s) (subtrees old) = true <-> In s (subtrees old).
Proof.
  rewrite existsb_exists. split.
  - intros (x & I & E). apply tree_same_eq in E. now subst.
  - intros I. exists s. split; [exact I|]. now apply tree_same_eq.
Qed.
Lemma news_eq lv n d l r : news (Node lv n d (Some l) (Some r)) =
  (if is_new (Node lv n d (Some l) (Some r)) then 1 else 0) + news l + news r.
Proof.
  unfold news. rewrite subtrees_eq. cbn [filter osubtrees]. rewrite filter_app.
  destruct (is_new (Node lv n d (Some l) (Some r))); cbn [length]; rewrite app_length; lia.
Qed.

Lemma fold_cost t : inner_named t -> NoDup (names t) -> forall T x T' lg,
  (forall m, In m (names t) -> ready T m) -> fold t T = Ok (x, T', lg) ->
  covers T' t /\ length lg <= 1 + 2 * news t /\ (In t (subtrees old) -> length lg = 1).
Proof.
  induction t as [lv nm d l r Hl Hr] using tree_induction. intros I N T x T' lg Q H.
  destruct (inner_named_case _ I) as [(lv' & d' & Z)|(lv' & n & d' & tl & tr & Z & Il & Ir)]; inv Z.
  - cbn [m_fold_up_meta bind] in H. apply bind_Ok in H. destruct H as (y & _ & Z). inv Z.
    split; [|simpl; split; [lia|auto]]. intros m l r (lv & d & [E|[]]). discriminate.
  - simpl in Hl, Hr. rewrite names_eq in N, Q. cbn [onames app] in N, Q. inv N. rename H2 into Nn. rename H3 into N.
    apply NoDup_app_inv in N. destruct N as (Nl & Nr & D).
    apply fold_case in H. destruct H as (xl & T1 & lg1 & xr & lg2 & H1 & H2 & ->).
    assert (Ql : forall m, In m (names tl) -> ready T m) by (intros; apply Q; right; apply in_or_app; auto).
    assert (Qr : forall m, In m (names tr) -> ready T m) by (intros; apply Q; right; apply in_or_app; auto).
    assert (Qn : ready T n) by (apply Q; left; reflexivity).
    pose proof (call_only true n tl Il _ _ _ _ H1) as O1. pose proof (call_only false n tr Ir _ _ _ _ H2) as O2.
    assert (Dn : forall m, In m (names tr) -> ~ In m (n :: names tl)).
    { intros m Im [<-|Z]; [apply Nn, in_or_app; auto|eauto]. }
    assert (Dl : forall m, In m (names tl) -> ~ In m (n :: names tr)).
    { intros m Im [<-|Z]; [apply Nn, in_or_app; auto|eauto]. }
    assert (Qr1 : forall m, In m (names tr) -> ready T1 m).
    { intros m Im. eapply only_ready; [exact O1|auto|auto]. }
    (* the left call *)
    assert (CL : covers T1 tl /\ length lg1 <= 1 + 2 * news tl /\ (exists y, T1 (NForkL n) = Some (tl, y)) /\
        ((exists y, T (NForkL n) = Some (tl, y)) -> lg1 = []) /\ T1 (NForkR n) = T (NForkR n)).
    { apply memo_case in H1. destruct H1 as [(E & -> & ->)|(E & T2 & F & ->)].
      - split; [|split; [simpl; lia|split; [eauto|auto]]].
        apply ready_covers; [exact Ql|]. apply (ready_hit T n true tl xl Qn). exact E.
      - destruct (Hl Il Nl _ _ _ _ Ql F) as (C & Lg & _).
        assert (Z : forall b m, In m (names tl) -> (if b : bool then NForkL m else NForkR m) <> NForkL n).
        { intros b m Im Eq. destruct b; [|discriminate]. injection Eq as ->. apply Nn, in_or_app. auto. }
        split; [|split; [exact Lg|split; [|split]]].
        + intros m a b Ed. destruct (C m a b Ed) as [EL ER]. pose proof (edge_name _ _ _ _ Ed) as Im.
          split; rewrite set_other; auto; [apply (Z true)|apply (Z false)]; exact Im.
        + exists xl. apply set_same.
        + intros Y. contradiction.
        + rewrite set_other by discriminate. apply (only_keeps (names tl) T T2 n); [eapply fold_only; eauto|].
          intros Z'. apply Nn, in_or_app. auto. }
    destruct CL as (CL & LL & EL & HL & ER0).
    assert (CR : covers T' tr /\ length lg2 <= 1 + 2 * news tr /\ (exists y, T' (NForkR n) = Some (tr, y)) /\
        ((exists y, T1 (NForkR n) = Some (tr, y)) -> lg2 = []) /\ T' (NForkL n) = T1 (NForkL n)).
    { apply memo_case in H2. destruct H2 as [(E & -> & ->)|(E & T2 & F & ->)].
      - split; [|split; [simpl; lia|split; [eauto|auto]]].
        apply ready_covers; [exact Qr1|]. rewrite ER0 in E. apply (ready_hit T n false tr xr Qn). exact E.
      - destruct (Hr Ir Nr _ _ _ _ Qr1 F) as (C & Lg & _).
        assert (Z : forall b m, In m (names tr) -> (if b : bool then NForkL m else NForkR m) <> NForkR n).
        { intros b m Im Eq. destruct b; [discriminate|]. injection Eq as ->. apply Nn, in_or_app. auto. }
        split; [|split; [exact Lg|split; [|split]]].
        + intros m a b Ed. destruct (C m a b Ed) as [E1 E2]. pose proof (edge_name _ _ _ _ Ed) as Im.
          split; rewrite set_other; auto; [apply (Z true)|apply (Z false)]; exact Im.
        + exists xr. apply set_same.
        + intros Y. contradiction.
        + rewrite set_other by discriminate. apply (only_keeps (names tr) T1 T2 n); [eapply fold_only; eauto|].
          intros Z'. apply Nn, in_or_app. auto. }
    destruct CR as (CR & LR & ER & HR & EL0).
    assert (OldCase : In (Node lv' (Some n) d' (Some tl) (Some tr)) (subtrees old) -> lg1 = [] /\ lg2 = []).
    { intros Io. assert (E : edge old n tl tr) by (exists lv', d'; exact Io).
      destruct Qn as [(l' & r' & E2 & (yl & YL) & (yr & YR))|(X & _)].
      - destruct (edge_unique _ _ _ _ _ _ old_nodup E E2) as [<- <-]. split; [apply HL; eauto|].
        apply HR. rewrite ER0. eauto.
      - elim X. eapply edge_name; eauto. }
    split; [|split].
    + intros m a b (lv & d & E). rewrite subtrees_eq in E. destruct E as [E|E].
      * injection E as -> -> -> -> ->. split; [rewrite EL0; exact EL|exact ER].
      * apply in_app_or in E. cbn [osubtrees] in E. destruct E as [E|E].
        -- assert (Ed : edge tl m a b) by (exists lv, d; exact E).
           eapply only_entries; [exact O2| |apply CL; exact Ed]. apply Dl. eapply edge_name; eauto.
        -- apply CR. exists lv, d. exact E.
    + rewrite news_eq. cbn [length]. rewrite app_length.
      destruct (is_new (Node lv' (Some n) d' (Some tl) (Some tr))) eqn:W; [lia|].
      unfold is_new in W. cbn [has_children andb] in W. apply negb_false_iff in W.
      apply is_old in W. destruct (OldCase W) as [-> ->]. simpl. lia.
    + intros Io. destruct (OldCase Io) as [-> ->]. reflexivity.
Qed.
End Cost.

Section History.
Context {A R : Type} (eqA : forall x y : A, {x = y} + {x <> y}).
Context (f : option R -> A -> level -> option name -> option R -> res R).
Notation fold := (m_fold_up_meta eqA f).
Notation tab := (mtab (tree A) R).
Implicit Types (s t u : tree A) (T : tab).

Definition used (hist : list (tree A)) T : Prop :=
  forall n e, T n = Some e -> exists u m, In u hist /\ In m (names u) /\ (n = NForkL m \/ n = NForkR m).
Definition state_ok (hist : list (tree A)) T : Prop :=
  used hist T /\ match hist with [] => True | t :: _ => covers T t end.

Lemma orderly_head t hist : orderly (t :: hist) -> inner_named t /\ NoDup (names t) /\ orderly hist.
Proof. simpl. tauto. Qed.

Lemma state_step t hist T x T' lg : orderly (t :: hist) -> state_ok hist T -> fold t T = Ok (x, T', lg) ->
  state_ok (t :: hist) T' /\
  match hist with p :: _ => length lg <= 1 + 2 * changed eqA p t | [] => True end.
Proof.
  intros Od [U C] F. destruct (orderly_head _ _ Od) as (In0 & Nd & Oh).
  pose proof (fold_only eqA f t In0 _ _ _ _ F) as O.
  assert (U' : used (t :: hist) T').
  { intros n e H. destruct (O n) as [E|(m & I & E)].
    - rewrite E in H. destruct (U n e H) as (u & m & I1 & I2 & I3). exists u, m. split; [right; exact I1|auto].
    - exists t, m. split; [left; reflexivity|auto]. }
  destruct hist as [|p older].
  - assert (Z : forall n, T n = None).
    { intros n. destruct (T n) as [e|] eqn:Q; [|reflexivity]. destruct (U n e Q) as (u & _ & [] & _). }
    destruct (fold_cost eqA f (Node 0%N None (t_peek t) None None) (NoDup_nil _) t In0 Nd T x T' lg) as (Cv & _).
    + intros m Im. right. split; [intros []|]. split; apply Z.
    + exact F.
    + split; [|exact I]. split; assumption.
  - destruct (orderly_head _ _ Oh) as (Ip & Np & _).
    destruct (fold_cost eqA f p Np t In0 Nd T x T' lg) as (Cv & Lg & _).
    + intros m Im. simpl in Od. destruct Od as (_ & _ & _ & Od). destruct (Od m Im) as [H|H].
      * left. destruct (name_edge p m Ip H) as (l & r & E). exists l, r. split; [exact E|]. apply C. exact E.
      * right. split; [apply H; left; reflexivity|].
        assert (Z : forall b, T (if b : bool then NForkL m else NForkR m) = None).
        { intros b. destruct (T (if b then NForkL m else NForkR m)) as [e|] eqn:Q; [|reflexivity].
          destruct (U _ _ Q) as (u & m' & I1 & I2 & I3). elim (H u I1).
          destruct b, I3 as [I3|I3]; try discriminate; injection I3 as <-; exact I2. }
        split; [apply (Z true)|apply (Z false)].
    + exact F.
    + split; [split; assumption|]. exact Lg.
Qed.

Lemma runs_state : forall ts hist T rs T' lgs, orderly (rev ts ++ hist) -> state_ok hist T ->
  runs fold ts T = Ok (rs, T', lgs) -> state_ok (rev ts ++ hist) T'.
Proof.
  induction ts as [|t ts IH]; simpl; intros hist T rs T' lgs O S H.
  - now inv H.
  - apply bind_Ok in H. destruct H as ([[y T1] lg] & F & H).
    apply bind_Ok in H. destruct H as ([[ys T2] lgs2] & H & Z). inv Z.
    rewrite <- app_assoc in *. cbn [app] in *.
    assert (O1 : orderly (t :: hist)).
    { clear - O. induction (rev ts) as [|u l IHl]; [exact O|]. apply IHl. cbn [app] in O. now apply orderly_head in O. }
    eapply IH; [exact O| |exact H]. eapply state_step; eauto.
Qed.
Lemma no_memos_state : state_ok [] no_memos.
Proof. split; [|exact I]. intros n e H. discriminate. Qed.

Theorem history_cost t t' older rs T lgs x T' lg : orderly (t' :: t :: older) ->
  runs fold (rev (t :: older)) no_memos = Ok (rs, T, lgs) -> fold t' T = Ok (x, T', lg) ->
  length lg <= 1 + 2 * changed eqA t t'.
Proof.
  intros O H F. destruct (orderly_head _ _ O) as (_ & _ & O1).
  assert (S : state_ok (t :: older) T).
  { rewrite <- (rev_involutive (t :: older)), <- (app_nil_r (rev (rev (t :: older)))).
    eapply runs_state; [|apply no_memos_state|exact H]. rewrite app_nil_r, rev_involutive. exact O1. }
  destruct (state_step t' (t :: older) T x T' lg O S F) as (_ & L). exact L.
Qed.
End History.
