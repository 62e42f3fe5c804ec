(** * Proofs about the store model, part 1: trees and cursors.

    A handle represents a pure tree when unfolding it in the store gives that tree.
    A cursor is related more loosely: of a forest item only the outer branch has to be
    intact, and the inner one only while the cursor is clean, because a Raz that has
    been peeked leaves the inner branch of the next node overwritten. *)

From Verif Require Import Base BaseFacts StackModel AStackModel LevelTreeModel TreeCursorModel StoreModel
  TreeProofs CursorProofs.

(** ** Running computations over a store *)
Lemma s_bind_Ok {T A X Y} (m : sm T A X) (f : X -> sm T A Y) st x st' :
  m st = Ok (x, st') -> s_bind m f st = f x st'.
Proof. intros H. unfold s_bind. now rewrite H. Qed.

Lemma s_loop_sim {T A S S' R R'} (Rel : store T A -> S' -> S -> Prop)
    (Fin : store T A -> R' -> R -> Prop) (step : S -> res (S + R)) (sstep : S' -> sm T A (S' + R')) :
  (forall st s' s x, Rel st s' s -> step s = Ok x ->
     exists x' st', sstep s' st = Ok (x', st') /\
       match x, x' with
       | inl a, inl a' => Rel st' a' a
       | inr r, inr r' => Fin st' r' r
       | _, _ => False
       end) ->
  forall n k st s' s r, Rel st s' s -> loop n step s = Ok r -> n <= k ->
  exists r' st', s_loop k sstep s' st = Ok (r', st') /\ Fin st' r' r.
Proof.
  intros H n. induction n as [|n IH]; intros k st s' s r HR L K; simpl in L; [discriminate|].
  destruct k as [|k]; [lia|]. simpl.
  destruct (step s) as [x| |] eqn:St; try discriminate.
  destruct (H _ _ _ _ HR St) as (x' & st' & E & P). rewrite (s_bind_Ok _ _ _ _ _ E).
  destruct x as [a|b], x' as [a'|b']; try contradiction.
  - apply (IH k st' a' a r P L). lia.
  - injection L as <-. exists b', st'. split; [reflexivity|exact P].
Qed.

(** [P] holds for all large enough fuel. *)
Definition ev (P : nat -> Prop) : Prop := exists k0, forall k, k0 <= k -> P k.
Lemma ev_always (P : nat -> Prop) : (forall k, P k) -> ev P.
Proof. intros H. exists 0. auto. Qed.
Lemma ev_and (P Q : nat -> Prop) : ev P -> ev Q -> ev (fun k => P k /\ Q k).
Proof. intros [a HP] [b HQ]. exists (a + b). intros k K. split; [apply HP|apply HQ]; lia. Qed.
Lemma ev_imp (P Q : nat -> Prop) : ev P -> (forall k, P k -> Q k) -> ev Q.
Proof. intros [a HP] H. exists a. auto. Qed.

Lemma s_loop_ev {T A S S' R R' P} (Rel : P -> store T A -> S' -> S -> Prop)
    (Fin : P -> store T A -> R' -> R -> Prop) (step : S -> res (S + R)) (sstep : nat -> S' -> sm T A (S' + R')) :
  (forall s x, step s = Ok x -> ev (fun k => forall p st s', Rel p st s' s ->
     exists x' st', sstep k s' st = Ok (x', st') /\
       match x, x' with
       | inl a, inl a' => Rel p st' a' a
       | inr r, inr r' => Fin p st' r' r
       | _, _ => False
       end)) ->
  forall n s r, loop n step s = Ok r -> ev (fun k => forall p st s', Rel p st s' s ->
  exists r' st', s_loop k (sstep k) s' st = Ok (r', st') /\ Fin p st' r' r).
Proof.
  intros H n s r L.
  cut (ev (fun k => forall m, n <= m -> forall p st s', Rel p st s' s ->
    exists r' st', s_loop m (sstep k) s' st = Ok (r', st') /\ Fin p st' r' r)).
  { intros [k0 K]. exists (k0 + n). intros k Hk. apply K; lia. }
  revert s r L. induction n as [|n IH]; intros s r L; simpl in L; [discriminate|].
  destruct (step s) as [x| |] eqn:St; try discriminate.
  pose proof (H _ _ St) as E1. destruct x as [a|b].
  - specialize (IH _ _ L). apply (ev_imp _ _ (ev_and _ _ E1 IH)). intros k [K1 K2] m Hm p st s' HR.
    destruct m as [|m]; [lia|]. simpl.
    destruct (K1 _ _ _ HR) as (x' & st' & Ex & Q). rewrite (s_bind_Ok _ _ _ _ _ Ex).
    destruct x' as [a'|b']; [|contradiction]. apply K2; [lia|exact Q].
  - injection L as <-. apply (ev_imp _ _ E1). intros k K1 m Hm p st s' HR.
    destruct m as [|m]; [lia|]. simpl.
    destruct (K1 _ _ _ HR) as (x' & st' & Ex & Q). rewrite (s_bind_Ok _ _ _ _ _ Ex).
    destruct x' as [a'|b']; [contradiction|]. exists b', st'. auto.
Qed.

(** ** Name bookkeeping: lists of names as multisets *)
Definition cnt (n : name) (l : list name) : nat := count_occ name_eq_dec l n.
Definition upto {T A} {Nsp : here} (L : list name) (st st' : store T A) : Prop :=
  forall a, fst a <> path \/ cnt (snd a) L = 0 -> st' a = st a.
Definition sub (l' l : list name) : Prop := forall n, cnt n l' <= cnt n l.
Definition uniq (l : list name) : Prop := forall n, cnt n l <= 1.

(** Disjointness. *)
Definition apart (a b : list name) : Prop := forall n, cnt n a = 0 \/ cnt n b = 0.

Lemma cnt_app n a b : cnt n (a ++ b) = cnt n a + cnt n b.
Proof. apply count_occ_app. Qed.
Lemma cnt_In n l : In n l <-> 0 < cnt n l.
Proof. apply count_occ_In. Qed.
Lemma uniq_NoDup l : uniq l <-> NoDup l.
Proof. symmetry. apply NoDup_count_occ. Qed.
Lemma cnt_zero n l : ~ In n l <-> cnt n l = 0.
Proof. rewrite cnt_In. lia. Qed.

Lemma upto_refl {T A} {Nsp : here} L (st : store T A) : upto L st st.
Proof. intros n _. reflexivity. Qed.
Lemma upto_trans {T A} {Nsp : here} L (a b c : store T A) : upto L a b -> upto L b c -> upto L a c.
Proof. intros H1 H2 n H. now rewrite H2, H1. Qed.
Lemma upto_sub {T A} {Nsp : here} L L' (a b : store T A) : sub L L' -> upto L a b -> upto L' a b.
Proof. intros I H [p n] N. apply H. simpl in *. specialize (I n). destruct N; [left|right]; auto. lia. Qed.
Lemma sub_refl l : sub l l.
Proof. intros n. lia. Qed.
Lemma sub_trans a b c : sub a b -> sub b c -> sub a c.
Proof. intros H1 H2 n. specialize (H1 n). specialize (H2 n). lia. Qed.

Lemma cnt_nil n : cnt n [] = 0.
Proof. reflexivity. Qed.

(** Decide goals about [sub], [uniq] and [apart] pointwise. *)
Ltac spec_names n :=
  repeat match goal with
  | H : apart _ _ |- _ => specialize (H n)
  | H : sub _ _ |- _ => specialize (H n)
  | H : uniq _ |- _ => specialize (H n)
  end.
Ltac names :=
  let n := fresh "n" in
  intros n; spec_names n; cbn [app] in *; rewrite ?cnt_app, ?cnt_nil in *; lia.

Definition oroot (n : option name) : list name := match n with None => [] | Some n => [n] end.

Section Tree.
Context {T A : Type} {TU : TreeUpdate A} {Nsp : here}.
Notation store := (store T A).
Implicit Types (st : store) (s : stree A) (t : tree A).

Fixpoint tnames t : list name :=
  match t with
  | Node _ nm _ l r =>
      oroot nm ++
      match l with None => [] | Some t1 => tnames t1 end ++
      match r with None => [] | Some t2 => tnames t2 end
  end.
Definition otnames (o : option (tree A)) : list name := match o with None => [] | Some t => tnames t end.

Lemma tnames_eq t : tnames t = oroot (t_name t) ++ otnames (t_left t) ++ otnames (t_right t).
Proof. now destruct t. Qed.

(** The handle [s] represents the tree [t]. *)
Fixpoint rep st s t {struct t} : Prop :=
  match t with
  | Node lv nm d l r =>
      st_level s = lv /\ st_name s = nm /\
      exists sl sr, tree_look st s = Some (d, sl, sr) /\
        match sl, l with
        | None, None => True
        | Some s1, Some t1 => rep st s1 t1
        | _, _ => False
        end /\
        match sr, r with
        | None, None => True
        | Some s2, Some t2 => rep st s2 t2
        | _, _ => False
        end
  end.
Definition orep st (so : option (stree A)) (o : option (tree A)) : Prop :=
  match so, o with
  | None, None => True
  | Some s, Some t => rep st s t
  | _, _ => False
  end.

Lemma rep_eq st s t : rep st s t <->
  st_level s = t_level t /\ st_name s = t_name t /\
  exists sl sr, tree_look st s = Some (t_peek t, sl, sr) /\
    orep st sl (t_left t) /\ orep st sr (t_right t).
Proof. destruct t. reflexivity. Qed.

(** ** Frame *)
Lemma look_frame L st st' s : upto L st st' -> apart (oroot (st_name s)) L ->
  tree_look st' s = tree_look st s.
Proof.
  intros U D. destruct s as [lv d l r|lv [q n]]; simpl; auto. rewrite U; auto. right. simpl.
  destruct (D n) as [D'|D']; auto. simpl in D'. unfold cnt in D'. simpl in D'.
  destruct (name_eq_dec n n); [discriminate|congruence].
Qed.

Lemma rep_frame L st st' t : forall s, upto L st st' -> apart (tnames t) L ->
  rep st s t -> rep st' s t.
Proof.
  induction t as [lv nm d l r IHl IHr] using tree_induction; intros s U D H.
  destruct H as (H1 & H2 & sl & sr & H3 & H4 & H5).
  split; [exact H1|]. split; [exact H2|]. exists sl, sr.
  cbn [tnames] in D.
  split; [|split].
  - rewrite (look_frame L st); auto. rewrite H2. intros n. specialize (D n). rewrite !cnt_app in D. lia.
  - destruct sl as [s1|], l as [t1|]; auto. apply (IHl s1 U); auto.
    intros n. specialize (D n). rewrite !cnt_app in D. lia.
  - destruct sr as [s1|], r as [t1|]; auto. apply (IHr s1 U); auto.
    intros n. specialize (D n). rewrite !cnt_app in D. lia.
Qed.

Lemma orep_frame L st st' so o : upto L st st' -> apart (otnames o) L -> orep st so o -> orep st' so o.
Proof. destruct so, o; simpl; auto. intros U D. now apply (rep_frame L). Qed.

Lemma write_upto st n c : upto [n] st (write st (path, n) c).
Proof.
  intros [q m] H. unfold write. destruct (loc_eq_dec (q, m) (path, n)) as [E|]; auto. injection E as -> ->.
  destruct H as [H|H]; [now contradiction H|]. unfold cnt in H. simpl in H.
  destruct (name_eq_dec n n); [discriminate|congruence].
Qed.
Lemma write_same st a c : write st a c a = Some c.
Proof. unfold write. destruct (loc_eq_dec a a); congruence. Qed.

(** [Tree::new] in the store. *)
Lemma tree_new_rep st lv nm d sl sr : exists s st',
  s_tree_new lv nm d sl sr st = Ok (Some s, st') /\ upto (oroot nm) st st' /\
  st_level s = lv /\ st_name s = nm /\ tree_look st' s = Some (d, sl, sr).
Proof.
  destruct nm as [n|]; simpl.
  - do 2 eexists. split; [reflexivity|]. split; [apply write_upto|]. simpl. rewrite write_same. auto.
  - do 2 eexists. split; [reflexivity|]. split; [apply upto_refl|]. simpl. auto.
Qed.

Lemma force_tree_Ok st s x : tree_look st s = Some x -> s_force_tree s st = Ok (x, st).
Proof. intros H. unfold s_force_tree. now rewrite H. Qed.
Lemma left_Ok st s d l r : tree_look st s = Some (d, l, r) -> st_left s st = Ok (l, st).
Proof. intros H. unfold st_left. now rewrite (s_bind_Ok _ _ _ _ _ (force_tree_Ok _ _ _ H)). Qed.
Lemma right_Ok st s d l r : tree_look st s = Some (d, l, r) -> st_right s st = Ok (r, st).
Proof. intros H. unfold st_right. now rewrite (s_bind_Ok _ _ _ _ _ (force_tree_Ok _ _ _ H)). Qed.
Lemma peek_Ok st s d l r : tree_look st s = Some (d, l, r) -> st_peek s st = Ok (d, st).
Proof. intros H. unfold st_peek. now rewrite (s_bind_Ok _ _ _ _ _ (force_tree_Ok _ _ _ H)). Qed.

(** ** Cursors *)
Variable deq : A -> A -> Prop.
Hypothesis deq_refl : forall d, deq d d.
Hypothesis deq_trans : forall a b c, deq a b -> deq b c -> deq a c.
Hypothesis reb_deq : forall l d d' lv nm r, deq d d' -> rebuild l d lv nm r = rebuild l d' lv nm r.
Hypothesis reb_out : forall l d lv nm r d', rebuild l d lv nm r = Ok d' -> deq d' d.

Notation sforest := (list (bool * stree A)).
Notation forest := (list (bool * tree A)).

Definition lhalf st s t : Prop :=
  st_level s = t_level t /\ st_name s = t_name t /\
  exists d sl sr, tree_look st s = Some (d, sl, sr) /\ deq d (t_peek t) /\ orep st sl (t_left t).
Definition rhalf st s t : Prop :=
  st_level s = t_level t /\ st_name s = t_name t /\
  exists d sl sr, tree_look st s = Some (d, sl, sr) /\ deq d (t_peek t) /\ orep st sr (t_right t).

Definition litems st (sf : sforest) (f : forest) : Prop :=
  Forall2 (fun p q => fst p = fst q /\ lhalf st (snd p) (snd q)) sf f.
Definition ritems st (sf : sforest) (f : forest) : Prop :=
  Forall2 (fun p q => fst p = fst q /\ rhalf st (snd p) (snd q)) sf f.

(** While clean, the node above has the current handle as its child. *)
Inductive slink st : bool -> sforest -> option (stree A) -> sforest ->
    forest -> option (tree A) -> forest -> Prop :=
| sl_dirty slf so srf lf o rf : slink st true slf so srf lf o rf
| sl_root so o : slink st false [] so [] [] o []
| sl_left d s t slf so srf lf o rf sl :
    pick ((d, t) :: lf) rf = Some true -> tree_look st s = Some (t_peek t, sl, so) ->
    t_right t = o -> slink st d slf (Some s) srf lf (Some t) rf ->
    slink st false ((d, s) :: slf) so srf ((d, t) :: lf) o rf
| sl_right d s t slf so srf lf o rf sr :
    pick lf ((d, t) :: rf) = Some false -> tree_look st s = Some (t_peek t, so, sr) ->
    t_left t = o -> slink st d slf (Some s) srf lf (Some t) rf ->
    slink st false slf so ((d, s) :: srf) lf o ((d, t) :: rf).

(** The root of the current tree can be read. *)
Definition top st (so : option (stree A)) (o : option (tree A)) : Prop :=
  match so, o with
  | None, None => True
  | Some s, Some t =>
      st_level s = t_level t /\ st_name s = t_name t /\
      exists sl sr, tree_look st s = Some (t_peek t, sl, sr)
  | _, _ => False
  end.

Record irep st (sc : scursor A) (c : cursor A) : Prop := {
  i_dirty : sc_dirty sc = dirty c;
  i_l : litems st (sc_lf sc) (l_forest c);
  i_r : ritems st (sc_rf sc) (r_forest c);
  i_link : slink st (dirty c) (sc_lf sc) (sc_tree sc) (sc_rf sc) (l_forest c) (c_tree c) (r_forest c);
  i_top : top st (sc_tree sc) (c_tree c)
}.
Definition crep st sc c : Prop := irep st sc c /\ orep st (sc_tree sc) (c_tree c).

(** The names a cursor relies on. *)
Fixpoint lown (f : forest) : list name :=
  match f with
  | [] => []
  | (_, t) :: r => oroot (t_name t) ++ otnames (t_left t) ++ lown r
  end.
Fixpoint rown (f : forest) : list name :=
  match f with
  | [] => []
  | (_, t) :: r => oroot (t_name t) ++ otnames (t_right t) ++ rown r
  end.
Definition fown (c : cursor A) : list name := lown (l_forest c) ++ rown (r_forest c).
Definition otop (o : option (tree A)) : list name :=
  match o with None => [] | Some t => oroot (t_name t) end.
Definition iown (c : cursor A) : list name := otop (c_tree c) ++ fown c.
Definition own (c : cursor A) : list name := otnames (c_tree c) ++ fown c.

Lemma otop_sub o : sub (otop o) (otnames o).
Proof. destruct o as [t|]; [|names]. simpl. rewrite tnames_eq. names. Qed.
Lemma iown_own c : sub (iown c) (own c).
Proof. pose proof (otop_sub (c_tree c)). unfold iown, own. names. Qed.

Lemma rep_top st so o : orep st so o -> top st so o.
Proof.
  destruct so as [s|], o as [t|]; simpl; auto. rewrite rep_eq.
  intros (H1 & H2 & sl & sr & H3 & _). split; [exact H1|]. split; [exact H2|]. eauto.
Qed.
Lemma rep_lhalf st s t : rep st s t -> lhalf st s t.
Proof.
  rewrite rep_eq. intros (H1 & H2 & sl & sr & H3 & H4 & _). split; [exact H1|]. split; [exact H2|].
  do 3 eexists. split; [exact H3|]. split; [apply deq_refl|exact H4].
Qed.
Lemma rep_rhalf st s t : rep st s t -> rhalf st s t.
Proof.
  rewrite rep_eq. intros (H1 & H2 & sl & sr & H3 & _ & H4). split; [exact H1|]. split; [exact H2|].
  do 3 eexists. split; [exact H3|]. split; [apply deq_refl|exact H4].
Qed.

(** *** Frame for cursors *)
Lemma lhalf_frame L st st' s t : upto L st st' ->
  apart (oroot (t_name t) ++ otnames (t_left t)) L -> lhalf st s t -> lhalf st' s t.
Proof.
  intros U D (H1 & H2 & d & sl & sr & H3 & H4 & H5). split; [exact H1|]. split; [exact H2|].
  exists d, sl, sr. split; [|split; [exact H4|]].
  - rewrite (look_frame L st); auto. rewrite H2. names.
  - apply (orep_frame L st); auto. names.
Qed.
Lemma rhalf_frame L st st' s t : upto L st st' ->
  apart (oroot (t_name t) ++ otnames (t_right t)) L -> rhalf st s t -> rhalf st' s t.
Proof.
  intros U D (H1 & H2 & d & sl & sr & H3 & H4 & H5). split; [exact H1|]. split; [exact H2|].
  exists d, sl, sr. split; [|split; [exact H4|]].
  - rewrite (look_frame L st); auto. rewrite H2. names.
  - apply (orep_frame L st); auto. names.
Qed.

Lemma litems_frame L st st' sf f : upto L st st' -> apart (lown f) L ->
  litems st sf f -> litems st' sf f.
Proof.
  intros U D H. induction H as [|[b s] [b' t] sf f [H1 H2] H3 IH]; [constructor|]. simpl in *.
  constructor; [split; [exact H1|]; simpl|].
  - apply (lhalf_frame L st); auto. names.
  - apply IH. names.
Qed.
Lemma ritems_frame L st st' sf f : upto L st st' -> apart (rown f) L ->
  ritems st sf f -> ritems st' sf f.
Proof.
  intros U D H. induction H as [|[b s] [b' t] sf f [H1 H2] H3 IH]; [constructor|]. simpl in *.
  constructor; [split; [exact H1|]; simpl|].
  - apply (rhalf_frame L st); auto. names.
  - apply IH. names.
Qed.
Lemma slink_frame L st st' b slf so srf lf o rf : upto L st st' ->
  apart (lown lf) L -> apart (rown rf) L ->
  litems st slf lf -> ritems st srf rf ->
  slink st b slf so srf lf o rf -> slink st' b slf so srf lf o rf.
Proof.
  intros U D1 D2 I1 I2 H. revert D1 D2 I1 I2.
  induction H as [slf so srf lf o rf|so o|d s t slf so srf lf o rf sl P Lk E H IH
                 |d s t slf so srf lf o rf sr P Lk E H IH]; intros D1 D2 I1 I2.
  - apply sl_dirty.
  - apply sl_root.
  - inversion I1 as [|? ? ? ? [_ (Q1 & Q2 & _)] I1']; subst. simpl in Q1, Q2. cbn [lown] in D1.
    apply (sl_left _ _ _ _ _ _ _ _ _ _ sl); auto.
    + rewrite (look_frame L st); auto. rewrite Q2. names.
    + apply IH; auto. names.
  - inversion I2 as [|? ? ? ? [_ (Q1 & Q2 & _)] I2']; subst. simpl in Q1, Q2. cbn [rown] in D2.
    apply (sl_right _ _ _ _ _ _ _ _ _ _ sr); auto.
    + rewrite (look_frame L st); auto. rewrite Q2. names.
    + apply IH; auto. names.
Qed.
Lemma top_frame L st st' so o : upto L st st' -> apart (otop o) L -> top st so o -> top st' so o.
Proof.
  destruct so as [s|], o as [t|]; simpl; auto. intros U D (H1 & H2 & sl & sr & H3).
  split; [exact H1|]. split; [exact H2|]. exists sl, sr. rewrite (look_frame L st); auto. now rewrite H2.
Qed.
Lemma irep_frame L st st' sc c : upto L st st' -> apart (iown c) L -> irep st sc c -> irep st' sc c.
Proof.
  intros U D [H1 H2 H3 H4 H5]. unfold iown, fown in D. constructor; auto.
  - apply (litems_frame L st); auto. names.
  - apply (ritems_frame L st); auto. names.
  - apply (slink_frame L st); auto; names.
  - apply (top_frame L st); auto. names.
Qed.
Lemma crep_frame L st st' sc c : upto L st st' -> apart (own c) L -> crep st sc c -> crep st' sc c.
Proof.
  intros U D [H1 H2]. pose proof (iown_own c). split.
  - apply (irep_frame L st); auto. names.
  - apply (orep_frame L st); auto. unfold own in D. names.
Qed.

(** *** up *)
Lemma up_to_left_sim st sc c : irep st sc c -> sc_up_to_left sc = up_to_left c.
Proof.
  intros [_ L R _ _]. unfold sc_up_to_left, up_to_left.
  destruct L as [|[b s] [b' t] slf lf [_ (E1 & _)] L]; destruct R as [|[d s2] [d' t2] srf rf [_ (E2 & _)] R];
    simpl in *; auto. now rewrite E1, E2.
Qed.

Lemma peek_op_top st so o : top st so o -> s_peek_op so st = Ok (peek_op o, st).
Proof.
  destruct so as [s|], o as [t|]; simpl; try contradiction; auto.
  intros (_ & _ & sl & sr & H). now rewrite (s_bind_Ok _ _ _ _ _ (peek_Ok _ _ _ _ _ H)).
Qed.
Lemma peek_op_rep st so o : orep st so o -> s_peek_op so st = Ok (peek_op o, st).
Proof. intros H. now apply peek_op_top, rep_top. Qed.

(** What one step up does to the store and to the relation. *)
Record up_post st sc c (u : up_result) sc' c' st' : Prop := {
  up_irep : irep st' sc' c';
  up_upto : upto (fown c) st st';
  up_fown : sub (fown c') (fown c);
  up_own : sub (own c') (own c);
  up_keeps : uniq (iown c) -> irep st' sc c;
  up_rep : orep st (sc_tree sc) (c_tree c) -> uniq (own c) -> orep st' (sc_tree sc') (c_tree c');
  up_tree : match u with
    | UpFail => sc' = sc /\ c' = c /\ st' = st
    | UpLeft => exists d s t t0, sc_tree sc' = Some s /\ c_tree c' = Some t /\ lhalf st' s t /\
        l_forest c = (d, t0) :: l_forest c' /\ r_forest c' = r_forest c /\
        t_name t = t_name t0 /\ t_left t = t_left t0
    | UpRight => exists d s t t0, sc_tree sc' = Some s /\ c_tree c' = Some t /\ rhalf st' s t /\
        r_forest c = (d, t0) :: r_forest c' /\ l_forest c' = l_forest c /\
        t_name t = t_name t0 /\ t_right t = t_right t0
    end
}.

Lemma up_sim st sc c u c' : irep st sc c -> uniq (fown c) -> up c = Ok (u, c') ->
  exists sc' st', sc_up sc st = Ok ((u, sc'), st') /\ up_post st sc c u sc' c' st'.
Proof.
  intros H Un U. pose proof (up_to_left_sim _ _ _ H) as E. unfold up in U. unfold sc_up. rewrite E.
  destruct (up_to_left c) as [[|]|] eqn:P.
  - (* left *)
    destruct H as [H1 H2 H3 H4 H5]. destruct c as [b lf o rf], sc as [b' slf so srf].
    simpl in *. subst b'.
    destruct H2 as [|[d s] [d' t] slf lf [Ed Hs] H2]; [discriminate|]. simpl in Ed, Hs. subst d'.
    pose proof Hs as (Q1 & Q2 & d0 & sl & sr & Lk & Dq & Rl).
    destruct b.
    + apply bind_Ok in U. destruct U as (d1 & RB & U). rewrite tree_new_eq in U.
      injection U as <- <-.
      rewrite (s_bind_Ok _ _ _ _ _ (left_Ok _ _ _ _ _ Lk)).
      rewrite (s_bind_Ok _ _ _ _ _ (peek_op_rep _ _ _ Rl)).
      rewrite (s_bind_Ok _ _ _ _ _ (peek_Ok _ _ _ _ _ Lk)).
      rewrite (s_bind_Ok _ _ _ _ _ (peek_op_top _ _ _ H5)).
      rewrite Q1, Q2. rewrite (reb_deq _ _ _ _ _ _ Dq), RB.
      unfold s_bind at 1, s_lift at 1. cbn [bind].
      destruct (tree_new_rep st (t_level t) (t_name t) d1 sl so) as (s' & st' & N & Up & N1 & N2 & N3).
      rewrite (s_bind_Ok _ _ _ _ _ N).
      do 2 eexists. split; [reflexivity|].
      unfold own, iown, fown in *. cbn [l_forest r_forest c_tree lown otop] in *.
      assert (F1 : litems st' slf lf) by (apply (litems_frame _ st st' _ _ Up); [names|exact H2]).
      assert (F2 : ritems st' srf rf) by (apply (ritems_frame _ st st' _ _ Up); [names|exact H3]).
      assert (F3 : orep st' sl (t_left t)) by (apply (orep_frame _ st st' _ _ Up); [names|exact Rl]).
      constructor; unfold own, iown, fown in *; cbn [l_forest r_forest c_tree lown rown otop dirty sc_lf sc_rf sc_tree sc_dirty otnames] in *.
      * constructor; auto using sl_dirty. simpl. rewrite N1, N2. eauto.
      * apply (upto_sub (oroot (t_name t))); [names|exact Up].
      * names.
      * rewrite tnames_eq. cbn [t_name t_left t_right]. names.
      * intros Un'. constructor; simpl; auto using sl_dirty.
        -- constructor; [|exact F1]. split; [reflexivity|]. simpl. split; [exact Q1|]. split; [exact Q2|].
           (* the cell, if overwritten, still has its outer branch *)
           destruct s as [lv0 dd l0 r0|lv0 n0].
           ++ exists d0, sl, sr. auto.
           ++ simpl in Q2. rewrite <- Q2 in N, N2. simpl in N. injection N as <- <-.
              destruct n0 as [q n0]. simpl in *. destruct (list_eq_dec name_eq_dec q path) as [->|Nq].
              ** exists d1, sl, so. rewrite write_same. split; [reflexivity|]. split; [|exact F3].
                 apply (reb_out _ _ _ _ _ _ RB).
              ** exists d0, sl, sr. rewrite (Up (q, n0)) by (left; exact Nq). auto.
        -- apply (top_frame _ st st' _ _ Up); [names|exact H5].
      * intros Ro Un'. simpl. split; [exact N1|]. split; [exact N2|]. exists sl, so. split; [exact N3|].
        split; [exact F3|]. apply (orep_frame _ st st' _ _ Up); [names|exact Ro].
      * exists d, s', (Node (t_level t) (t_name t) d1 (t_left t) o), t. simpl. do 2 (split; [reflexivity|]). split; [|auto].
        split; [exact N1|]. split; [exact N2|]. exists d1, sl, so. auto.
    + injection U as <- <-. do 2 eexists. split; [reflexivity|].
      unfold own, iown, fown in *. cbn [l_forest r_forest c_tree lown otop] in *.
      inversion H4 as [| |? ? ? ? ? ? ? ? ? sl' P' Lk' Er H4'|? ? ? ? ? ? ? ? ? ? P' _ _ _]; subst.
      2:{ rewrite up_to_left_pick in P. cbn [l_forest r_forest] in P. congruence. }
      rewrite Lk in Lk'. injection Lk' as Ed El Es. rewrite Ed, Es, <- ?El in *. clear El Dq.
      constructor; unfold own, iown, fown in *; cbn [l_forest r_forest c_tree lown rown otop dirty sc_lf sc_rf sc_tree sc_dirty otnames] in *.
      * constructor; auto. simpl. eauto.
      * apply upto_refl.
      * names.
      * rewrite tnames_eq. names.
      * intros _. constructor; simpl; auto. constructor; auto.
      * intros Ro _. cbn [orep]. apply rep_eq. split; [exact Q1|]. split; [exact Q2|]. eauto.
      * exists d, s, t, t. auto 8.
  - (* right *)
    destruct H as [H1 H2 H3 H4 H5]. destruct c as [b lf o rf], sc as [b' slf so srf].
    simpl in *. subst b'.
    destruct H3 as [|[d s] [d' t] srf rf [Ed Hs] H3]; [discriminate|]. simpl in Ed, Hs. subst d'.
    pose proof Hs as (Q1 & Q2 & d0 & sl & sr & Lk & Dq & Rl).
    destruct b.
    + apply bind_Ok in U. destruct U as (d1 & RB & U). rewrite tree_new_eq in U.
      injection U as <- <-.
      rewrite (s_bind_Ok _ _ _ _ _ (right_Ok _ _ _ _ _ Lk)).
      rewrite (s_bind_Ok _ _ _ _ _ (peek_op_top _ _ _ H5)).
      rewrite (s_bind_Ok _ _ _ _ _ (peek_Ok _ _ _ _ _ Lk)).
      rewrite (s_bind_Ok _ _ _ _ _ (peek_op_rep _ _ _ Rl)).
      rewrite Q1, Q2. rewrite (reb_deq _ _ _ _ _ _ Dq), RB.
      unfold s_bind at 1, s_lift at 1. cbn [bind].
      destruct (tree_new_rep st (t_level t) (t_name t) d1 so sr) as (s' & st' & N & Up & N1 & N2 & N3).
      rewrite (s_bind_Ok _ _ _ _ _ N).
      do 2 eexists. split; [reflexivity|].
      unfold own, iown, fown in *. cbn [l_forest r_forest c_tree rown otop] in *.
      assert (F1 : litems st' slf lf) by (apply (litems_frame _ st st' _ _ Up); [names|exact H2]).
      assert (F2 : ritems st' srf rf) by (apply (ritems_frame _ st st' _ _ Up); [names|exact H3]).
      assert (F3 : orep st' sr (t_right t)) by (apply (orep_frame _ st st' _ _ Up); [names|exact Rl]).
      constructor; unfold own, iown, fown in *; cbn [l_forest r_forest c_tree lown rown otop dirty sc_lf sc_rf sc_tree sc_dirty otnames] in *.
      * constructor; auto using sl_dirty. simpl. rewrite N1, N2. eauto.
      * apply (upto_sub (oroot (t_name t))); [names|exact Up].
      * names.
      * rewrite tnames_eq. cbn [t_name t_left t_right]. names.
      * intros Un'. constructor; simpl; auto using sl_dirty.
        -- constructor; [|exact F2]. split; [reflexivity|]. simpl. split; [exact Q1|]. split; [exact Q2|].
           destruct s as [lv0 dd l0 r0|lv0 n0].
           ++ exists d0, sl, sr. auto.
           ++ simpl in Q2. rewrite <- Q2 in N, N2. simpl in N. injection N as <- <-.
              destruct n0 as [q n0]. simpl in *. destruct (list_eq_dec name_eq_dec q path) as [->|Nq].
              ** exists d1, so, sr. rewrite write_same. split; [reflexivity|]. split; [|exact F3].
                 apply (reb_out _ _ _ _ _ _ RB).
              ** exists d0, sl, sr. rewrite (Up (q, n0)) by (left; exact Nq). auto.
        -- apply (top_frame _ st st' _ _ Up); [names|exact H5].
      * intros Ro Un'. simpl. split; [exact N1|]. split; [exact N2|]. exists so, sr. split; [exact N3|].
        split; [|exact F3]. apply (orep_frame _ st st' _ _ Up); [names|exact Ro].
      * exists d, s', (Node (t_level t) (t_name t) d1 o (t_right t)), t. simpl. do 2 (split; [reflexivity|]). split; [|auto].
        split; [exact N1|]. split; [exact N2|]. exists d1, so, sr. auto.
    + injection U as <- <-. do 2 eexists. split; [reflexivity|].
      unfold own, iown, fown in *. cbn [l_forest r_forest c_tree rown otop] in *.
      inversion H4 as [| |? ? ? ? ? ? ? ? ? ? P' _ _ _|? ? ? ? ? ? ? ? ? sl' P' Lk' Er H4']; subst.
      { rewrite up_to_left_pick in P. cbn [l_forest r_forest] in P. congruence. }
      rewrite Lk in Lk'. injection Lk' as Ed El Es. rewrite Ed, El, <- ?Es in *. clear Es Dq.
      constructor; unfold own, iown, fown in *; cbn [l_forest r_forest c_tree lown rown otop dirty sc_lf sc_rf sc_tree sc_dirty otnames] in *.
      * constructor; auto. simpl. eauto.
      * apply upto_refl.
      * names.
      * rewrite tnames_eq. names.
      * intros _. constructor; simpl; auto. constructor; auto.
      * intros Ro _. cbn [orep]. apply rep_eq. split; [exact Q1|]. split; [exact Q2|]. eauto.
      * exists d, s, t, t. auto 8.
  - injection U as <- <-. exists sc, st. split; [reflexivity|].
    constructor; auto; try apply sub_refl. apply upto_refl.
Qed.

(** *** down *)
(** The relation without the link to the node above; enough for moving down. *)
Record nrep st (sc : scursor A) (c : cursor A) : Prop := {
  n_dirty : sc_dirty sc = dirty c;
  n_l : litems st (sc_lf sc) (l_forest c);
  n_r : ritems st (sc_rf sc) (r_forest c);
  n_tree : orep st (sc_tree sc) (c_tree c)
}.
Definition linked_to st (sc : scursor A) (c : cursor A) : Prop :=
  slink st (dirty c) (sc_lf sc) (sc_tree sc) (sc_rf sc) (l_forest c) (c_tree c) (r_forest c).

Lemma crep_nrep st sc c : crep st sc c <-> nrep st sc c /\ linked_to st sc c.
Proof.
  split.
  - intros [[H1 H2 H3 H4 H5] H6]. split; [constructor; auto|exact H4].
  - intros [[H1 H2 H3 H4] H5]. split; [constructor; auto using rep_top|exact H4].
Qed.

Lemma down_right_sim f st sc c b c' : nrep st sc c -> f <> ForceDiscard ->
  down_right_force f c = (b, c') ->
  exists sc', sc_down_right_force f sc st = Ok ((b, sc'), st) /\ nrep st sc' c' /\
    sub (own c') (own c) /\
    (r_forest c = [] -> r_forest c' = []) /\
    (r_forest c = [] -> linked_to st sc c -> linked_to st sc' c').
Proof.
  intros H Nf D. unfold down_right_force in D. unfold sc_down_right_force.
  destruct H as [H1 H2 H3 H4]. destruct c as [di lf o rf], sc as [di' slf so srf]. simpl in *. subst di'.
  destruct so as [s|], o as [t|]; simpl in H4; try contradiction.
  2:{ injection D as <- <-. eexists. split; [reflexivity|]. split; [constructor; simpl; auto|].
      split; [apply sub_refl|]. auto. }
  pose proof H4 as R. apply rep_eq in R. destruct R as (Q1 & Q2 & sl & sr & Lk & Rl & Rr).
  rewrite (s_bind_Ok _ _ _ _ _ (right_Ok _ _ _ _ _ Lk)).
  assert (G : sr = None /\ t_right t = None /\ f = ForceNo /\ (b, c') = (false, Cursor di lf (Some t) rf) \/
    match sr, f with
    | None, ForceNo => (false, SCursor di slf (Some s) srf)
    | lt, ForceDiscard => (true, SCursor true slf lt srf)
    | lt, _ => (true, SCursor false ((di, s) :: slf) lt srf)
    end = (true, SCursor false ((di, s) :: slf) sr srf) /\
    (b, c') = (true, Cursor false ((di, t) :: lf) (t_right t) rf)).
  { destruct sr as [s2|], (t_right t) as [t2|]; simpl in Rr; try contradiction;
      destruct f; try congruence; auto. }
  destruct G as [(-> & _ & -> & G)|[-> G]]; injection G as -> ->.
  - eexists. split; [reflexivity|]. split; [constructor; simpl; auto|]. split; [apply sub_refl|]. auto.
  - eexists. split; [reflexivity|]. split; [|split; [|split]].
    + constructor; simpl; auto. constructor; [|exact H2]. split; [reflexivity|]. simpl. now apply rep_lhalf.
    + unfold own, fown. simpl. rewrite tnames_eq. names.
    + auto.
    + simpl. unfold linked_to. simpl. intros -> Lk0. inversion H3; subst.
      apply (sl_left _ _ _ _ _ _ _ _ _ _ sl); auto.
Qed.

Lemma down_left_sim f st sc c b c' : nrep st sc c -> f <> ForceDiscard ->
  down_left_force f c = (b, c') ->
  exists sc', sc_down_left_force f sc st = Ok ((b, sc'), st) /\ nrep st sc' c' /\
    sub (own c') (own c) /\
    (l_forest c = [] -> l_forest c' = []) /\
    (l_forest c = [] -> linked_to st sc c -> linked_to st sc' c').
Proof.
  intros H Nf D. unfold down_left_force in D. unfold sc_down_left_force.
  destruct H as [H1 H2 H3 H4]. destruct c as [di lf o rf], sc as [di' slf so srf]. simpl in *. subst di'.
  destruct so as [s|], o as [t|]; simpl in H4; try contradiction.
  2:{ injection D as <- <-. eexists. split; [reflexivity|]. split; [constructor; simpl; auto|].
      split; [apply sub_refl|]. auto. }
  pose proof H4 as R. apply rep_eq in R. destruct R as (Q1 & Q2 & sl & sr & Lk & Rl & Rr).
  rewrite (s_bind_Ok _ _ _ _ _ (left_Ok _ _ _ _ _ Lk)).
  assert (G : sl = None /\ t_left t = None /\ f = ForceNo /\ (b, c') = (false, Cursor di lf (Some t) rf) \/
    match sl, f with
    | None, ForceNo => (false, SCursor di slf (Some s) srf)
    | lt, ForceDiscard => (true, SCursor true slf lt srf)
    | lt, _ => (true, SCursor false slf lt ((di, s) :: srf))
    end = (true, SCursor false slf sl ((di, s) :: srf)) /\
    (b, c') = (true, Cursor false lf (t_left t) ((di, t) :: rf))).
  { destruct sl as [s2|], (t_left t) as [t2|]; simpl in Rl; try contradiction;
      destruct f; try congruence; auto. }
  destruct G as [(-> & _ & -> & G)|[-> G]]; injection G as -> ->.
  - eexists. split; [reflexivity|]. split; [constructor; simpl; auto|]. split; [apply sub_refl|]. auto.
  - eexists. split; [reflexivity|]. split; [|split; [|split]].
    + constructor; simpl; auto. constructor; [|exact H3]. split; [reflexivity|]. simpl. now apply rep_rhalf.
    + unfold own, fown. simpl. rewrite tnames_eq. names.
    + auto.
    + simpl. unfold linked_to. simpl. intros -> Lk0. inversion H2; subst.
      apply (sl_right _ _ _ _ _ _ _ _ _ _ sr); auto.
Qed.

(** [Force::Discard] below a node of which only the kept branch is intact. *)
Lemma discard_left_sim st sc c s t : irep st sc c -> sc_tree sc = Some s -> c_tree c = Some t ->
  lhalf st s t ->
  exists sc', sc_down_left_force ForceDiscard sc st = Ok ((true, sc'), st) /\
    crep st sc' (snd (down_left_force ForceDiscard c)) /\
    own (snd (down_left_force ForceDiscard c)) = otnames (t_left t) ++ fown c.
Proof.
  intros [H1 H2 H3 H4 H5] Es Et (Q1 & Q2 & d & sl & sr & Lk & Dq & Rl).
  unfold sc_down_left_force, down_left_force. rewrite Es, Et.
  rewrite (s_bind_Ok _ _ _ _ _ (left_Ok _ _ _ _ _ Lk)).
  exists (SCursor true (sc_lf sc) sl (sc_rf sc)). split; [destruct sl; reflexivity|].
  assert (G : (match t_left t with None => (true, Cursor true (l_forest c) (t_left t) (r_forest c))
                | Some _ => (true, Cursor true (l_forest c) (t_left t) (r_forest c)) end) =
              (true, Cursor true (l_forest c) (t_left t) (r_forest c))) by now destruct (t_left t).
  destruct (t_left t) as [t1|] eqn:Tl; cbn [snd];
    (split; [|reflexivity]); apply crep_nrep; (split; [constructor; simpl; auto|apply sl_dirty]).
Qed.
Lemma discard_right_sim st sc c s t : irep st sc c -> sc_tree sc = Some s -> c_tree c = Some t ->
  rhalf st s t ->
  exists sc', sc_down_right_force ForceDiscard sc st = Ok ((true, sc'), st) /\
    crep st sc' (snd (down_right_force ForceDiscard c)) /\
    own (snd (down_right_force ForceDiscard c)) = otnames (t_right t) ++ fown c.
Proof.
  intros [H1 H2 H3 H4 H5] Es Et (Q1 & Q2 & d & sl & sr & Lk & Dq & Rl).
  unfold sc_down_right_force, down_right_force. rewrite Es, Et.
  rewrite (s_bind_Ok _ _ _ _ _ (right_Ok _ _ _ _ _ Lk)).
  exists (SCursor true (sc_lf sc) sr (sc_rf sc)). split; [destruct sr; reflexivity|].
  destruct (t_right t) as [t1|] eqn:Tl; cbn [snd];
    (split; [|reflexivity]); apply crep_nrep; (split; [constructor; simpl; auto|apply sl_dirty]).
Qed.

(** [while c.down_right() {}] and [while c.down_left() {}]. *)
Lemma down_right_all_sim k st sc c c' : nrep st sc c -> down_right_all c = Ok c' ->
  S (ot_size (c_tree c)) <= k ->
  exists sc', sc_down_right_all k sc st = Ok (sc', st) /\ nrep st sc' c' /\ sub (own c') (own c) /\
    (r_forest c = [] -> linked_to st sc c -> r_forest c' = [] /\ linked_to st sc' c').
Proof.
  intros H D K. unfold down_right_all in D. unfold sc_down_right_all.
  pose (Rel := fun (st1 : store) (s1 : scursor A) (c1 : cursor A) => st1 = st /\ nrep st s1 c1 /\
    sub (own c1) (own c) /\ (r_forest c = [] -> linked_to st sc c -> r_forest c1 = [] /\ linked_to st s1 c1)).
  match type of D with loop _ ?f _ = _ => match goal with |- context [s_loop k ?g sc st] =>
    edestruct (s_loop_sim Rel Rel f g) as (sc' & st' & E & -> & F1 & F2 & F3); [| |exact D|exact K|] end end.
  - intros st1 s1 c1 x (-> & N & S1 & K1) St.
    destruct (down_right c1) as [b c2] eqn:Dn. unfold down_right in Dn.
    destruct (down_right_sim ForceNo _ _ _ _ _ N ltac:(discriminate) Dn) as (s2 & E2 & N2 & S2 & K2 & K3).
    exists (if b then inl s2 else inr s2), st.
    rewrite (s_bind_Ok _ _ _ _ _ E2). split; [destruct b; reflexivity|].
    assert (Rel st s2 c2).
    { split; [reflexivity|]. split; [exact N2|]. split; [eapply sub_trans; eassumption|].
      intros R L. destruct (K1 R L). auto. }
    destruct b; injection St as <-; assumption.
  - split; [reflexivity|]. split; [exact H|]. split; [apply sub_refl|]. auto.
  - exists sc'. auto.
Qed.
Lemma down_left_all_sim k st sc c c' : nrep st sc c -> down_left_all c = Ok c' ->
  S (ot_size (c_tree c)) <= k ->
  exists sc', sc_down_left_all k sc st = Ok (sc', st) /\ nrep st sc' c' /\ sub (own c') (own c) /\
    (l_forest c = [] -> linked_to st sc c -> l_forest c' = [] /\ linked_to st sc' c').
Proof.
  intros H D K. unfold down_left_all in D. unfold sc_down_left_all.
  pose (Rel := fun (st1 : store) (s1 : scursor A) (c1 : cursor A) => st1 = st /\ nrep st s1 c1 /\
    sub (own c1) (own c) /\ (l_forest c = [] -> linked_to st sc c -> l_forest c1 = [] /\ linked_to st s1 c1)).
  match type of D with loop _ ?f _ = _ => match goal with |- context [s_loop k ?g sc st] =>
    edestruct (s_loop_sim Rel Rel f g) as (sc' & st' & E & -> & F1 & F2 & F3); [| |exact D|exact K|] end end.
  - intros st1 s1 c1 x (-> & N & S1 & K1) St.
    destruct (down_left c1) as [b c2] eqn:Dn. unfold down_left in Dn.
    destruct (down_left_sim ForceNo _ _ _ _ _ N ltac:(discriminate) Dn) as (s2 & E2 & N2 & S2 & K2 & K3).
    exists (if b then inl s2 else inr s2), st.
    rewrite (s_bind_Ok _ _ _ _ _ E2). split; [destruct b; reflexivity|].
    assert (Rel st s2 c2).
    { split; [reflexivity|]. split; [exact N2|]. split; [eapply sub_trans; eassumption|].
      intros R L. destruct (K1 R L). auto. }
    destruct b; injection St as <-; assumption.
  - split; [reflexivity|]. split; [exact H|]. split; [apply sub_refl|]. auto.
  - exists sc'. auto.
Qed.

(** *** Loops of [up] *)
Definition cpost st c st' sc' c' : Prop :=
  crep st' sc' c' /\ upto (own c) st st' /\ sub (own c') (own c).

Lemma fown_own c : sub (fown c) (own c).
Proof. unfold own. names. Qed.

Lemma up_crep st sc c u c' : crep st sc c -> uniq (own c) -> up c = Ok (u, c') ->
  exists sc' st', sc_up sc st = Ok ((u, sc'), st') /\ cpost st c st' sc' c'.
Proof.
  intros [H1 H2] Un U. pose proof (fown_own c) as FO.
  destruct (up_sim _ _ _ _ _ H1 ltac:(names) U) as (sc' & st' & E & P).
  exists sc', st'. split; [exact E|]. split; [|split].
  - split; [apply (up_irep _ _ _ _ _ _ _ P)|apply (up_rep _ _ _ _ _ _ _ P); auto].
  - apply (upto_sub (fown c)); [exact FO|apply (up_upto _ _ _ _ _ _ _ P)].
  - apply (up_own _ _ _ _ _ _ _ P).
Qed.

Lemma up_or_panic_sim st sc c c' : crep st sc c -> uniq (own c) -> up_or_panic c = Ok c' ->
  exists sc' st', sc_up_or_panic sc st = Ok (sc', st') /\ cpost st c st' sc' c'.
Proof.
  intros H Un U. unfold up_or_panic in U. apply bind_Ok in U. destruct U as ([u c1] & U & U').
  apply bind_Ok in U'. destruct U' as ([] & As & U'). injection U' as ->.
  destruct (up_crep _ _ _ _ _ H Un U) as (sc' & st' & E & P).
  exists sc', st'. split; [|exact P]. unfold sc_up_or_panic. rewrite (s_bind_Ok _ _ _ _ _ E).
  rewrite As. reflexivity.
Qed.

(** A loop whose body is one step of the cursor. *)
Lemma cpost_refl st sc c : crep st sc c -> cpost st c st sc c.
Proof. intros H. split; [exact H|]. split; [apply upto_refl|apply sub_refl]. Qed.
Lemma cpost_trans st c st1 c1 sc1 st2 c2 sc2 :
  cpost st c st1 sc1 c1 -> cpost st1 c1 st2 sc2 c2 -> cpost st c st2 sc2 c2.
Proof.
  intros (A1 & A2 & A3) (B1 & B2 & B3). split; [exact B1|]. split.
  - apply (upto_trans _ _ _ _ A2). apply (upto_sub (own c1)); auto.
  - eapply sub_trans; eassumption.
Qed.

Lemma cursor_loop (Q : cursor A -> Prop) (step : cursor A -> res (cursor A + cursor A))
    (sstep : scursor A -> sm T A (scursor A + scursor A)) :
  (forall c st sc x, Q c -> crep st sc c -> uniq (own c) -> step c = Ok x ->
     exists x' st', sstep sc st = Ok (x', st') /\
       match x, x' with
       | inl a, inl a' | inr a, inr a' => Q a /\ cpost st c st' a' a
       | _, _ => False
       end) ->
  forall n k st sc c c', Q c -> crep st sc c -> uniq (own c) -> loop n step c = Ok c' -> n <= k ->
  exists sc' st', s_loop k sstep sc st = Ok (sc', st') /\ Q c' /\ cpost st c st' sc' c'.
Proof.
  intros H n k st sc c c' HQ HR Un L K.
  apply (s_loop_sim (fun st1 (s1 : scursor A) c1 => Q c1 /\ cpost st c st1 s1 c1)
                    (fun st1 (s1 : scursor A) c1 => Q c1 /\ cpost st c st1 s1 c1) step sstep) with (n := n) (s := c); auto.
  2:{ split; [exact HQ|]. now apply cpost_refl. }
  intros st1 s1 c1 x (Q1 & P1) St. pose proof P1 as (R1 & U1 & S1).
  destruct (H c1 st1 s1 x Q1 R1 ltac:(names) St) as (x' & st' & E & P).
  exists x', st'. split; [exact E|].
  destruct x as [a|a], x' as [a'|a']; try contradiction; destruct P as [P2 P3]; split; auto;
    eapply cpost_trans; eassumption.
Qed.

Lemma up_all_sim st sc c c' k : crep st sc c -> uniq (own c) -> up_all c = Ok c' ->
  S (forest_len c) <= k ->
  exists sc' st', sc_up_all k sc st = Ok (sc', st') /\ cpost st c st' sc' c'.
Proof.
  intros H Un U K.
  destruct (cursor_loop (fun _ => True)
    (fun c => do ' (u, c') <- up c; Ok (if up_failed u then inr c' else inl c'))
    (fun c => act ' (u, c') <- sc_up c; s_ret (if up_failed u then inr c' else inl c')))
    with (n := S (forest_len c)) (k := k) (st := st) (sc := sc) (c := c) (c' := c')
    as (sc' & st' & E & _ & P); auto.
  - intros c1 st1 s1 x _ R1 Un1 St. apply bind_Ok in St. destruct St as ([u c2] & U2 & St).
    destruct (up_crep _ _ _ _ _ R1 Un1 U2) as (s2 & st2 & E & P).
    exists (if up_failed u then inr s2 else inl s2), st2. rewrite (s_bind_Ok _ _ _ _ _ E).
    split; [reflexivity|]. destruct (up_failed u); injection St as <-; auto.
  - exists sc', st'. auto.
Qed.

Ltac inv_panic St := apply bind_Ok in St; let c2 := fresh "c2" in let U2 := fresh "U2" in
  destruct St as (c2 & U2 & St); injection St as <-.
Ltac cursor_loop_with Q U k0 sc' st' E P :=
  match type of U with loop ?n0 ?f0 ?c0 = Ok ?c0' =>
  match goal with |- context [s_loop k0 ?g0 ?sc0 ?st0] =>
    destruct (cursor_loop Q f0 g0) with (n := n0) (k := k0) (st := st0) (sc := sc0) (c := c0) (c' := c0')
      as (sc' & st' & E & P) end end.

Lemma up_keeps_r_nil c c' : r_forest c = [] -> up_or_panic c = Ok c' -> r_forest c' = [].
Proof.
  intros R U. unfold up_or_panic in U. apply bind_Ok in U. destruct U as ([u c1] & U & U').
  apply bind_Ok in U'. destruct U' as ([] & As & U'). injection U' as <-.
  unfold up, up_to_left in U. rewrite R in U.
  destruct (l_forest c) as [|[d t] lf]; [injection U as <- <-; exact R|].
  destruct (dirty c); [apply bind_Ok in U; destruct U as (? & _ & U)|]; injection U as <- <-; reflexivity.
Qed.
Lemma up_keeps_l_nil c c' : l_forest c = [] -> up_or_panic c = Ok c' -> l_forest c' = [].
Proof.
  intros R U. unfold up_or_panic in U. apply bind_Ok in U. destruct U as ([u c1] & U & U').
  apply bind_Ok in U'. destruct U' as ([] & As & U'). injection U' as <-.
  unfold up, up_to_left in U. rewrite R in U.
  destruct (r_forest c) as [|[d t] lf]; [injection U as <- <-; exact R|].
  destruct (dirty c); [apply bind_Ok in U; destruct U as (? & _ & U)|]; injection U as <- <-; reflexivity.
Qed.

Lemma clear_right_sim st sc c c' k : crep st sc c -> uniq (own c) -> join_clear_right c = Ok c' ->
  S (forest_len c) <= k ->
  exists sc' st', sc_clear_right k sc st = Ok (sc', st') /\ r_forest c' = [] /\ cpost st c st' sc' c'.
Proof.
  intros H Un U K. unfold join_clear_right in U.
  assert (Rf : r_forest c' = []).
  { clear - U. remember (S (forest_len c)) as n. clear Heqn. revert c U. induction n as [|n IH]; simpl; intros c U; [discriminate|].
    destruct (r_forest c) eqn:R; [injection U as <-; exact R|].
    destruct (up_or_panic c); simpl in U; try discriminate. eauto. }
  unfold sc_clear_right. cursor_loop_with (fun _ : cursor A => True) U k sc' st' E P; auto.
  - intros c1 st1 s1 x _ R1 Un1 St. pose proof (i_r _ _ _ (proj1 R1)) as I1.
    destruct I1 as [|p q sf f _ _].
    + injection St as <-. exists (inr s1), st1. split; [reflexivity|]. split; [exact I|]. now apply cpost_refl.
    + inv_panic St. destruct (up_or_panic_sim _ _ _ _ R1 Un1 U2) as (s2 & st2 & E & P).
      exists (inl s2), st2. rewrite (s_bind_Ok _ _ _ _ _ E). auto.
  - destruct P as [_ P]. exists sc', st'. auto.
Qed.

Lemma clear_left_sim st sc c c' k : crep st sc c -> uniq (own c) -> join_clear_left c = Ok c' ->
  S (forest_len c) <= k ->
  exists sc' st', sc_clear_left k sc st = Ok (sc', st') /\ l_forest c' = [] /\ cpost st c st' sc' c'.
Proof.
  intros H Un U K. unfold join_clear_left in U.
  assert (Rf : l_forest c' = []).
  { clear - U. remember (S (forest_len c)) as n. clear Heqn. revert c U. induction n as [|n IH]; simpl; intros c U; [discriminate|].
    destruct (l_forest c) eqn:R; [injection U as <-; exact R|].
    destruct (up_or_panic c); simpl in U; try discriminate. eauto. }
  unfold sc_clear_left. cursor_loop_with (fun _ : cursor A => True) U k sc' st' E P; auto.
  - intros c1 st1 s1 x _ R1 Un1 St. pose proof (i_l _ _ _ (proj1 R1)) as I1.
    destruct I1 as [|p q sf f _ _].
    + injection St as <-. exists (inr s1), st1. split; [reflexivity|]. split; [exact I|]. now apply cpost_refl.
    + inv_panic St. destruct (up_or_panic_sim _ _ _ _ R1 Un1 U2) as (s2 & st2 & E & P).
      exists (inl s2), st2. rewrite (s_bind_Ok _ _ _ _ _ E). auto.
  - destruct P as [_ P]. exists sc', st'. auto.
Qed.

Lemma join_left_up_sim lev st sc c c' k : crep st sc c -> uniq (own c) -> r_forest c = [] ->
  join_left_up lev c = Ok c' -> S (forest_len c) <= k ->
  exists sc' st', sc_join_left_up k lev sc st = Ok (sc', st') /\ r_forest c' = [] /\ cpost st c st' sc' c'.
Proof.
  intros H Un O U K. unfold join_left_up in U.
  unfold sc_join_left_up. cursor_loop_with (fun c1 : cursor A => r_forest c1 = []) U k sc' st' E P; auto.
  - intros c1 st1 s1 x Q1 R1 Un1 St.
    assert (Lv : sc_up_left_level s1 = up_left_level c1).
    { unfold sc_up_left_level, up_left_level. destruct (i_l _ _ _ (proj1 R1)) as [|[? ?] [? ?] ? ? [_ (HL & _)] _]; simpl in *; congruence. }
    rewrite Lv. destruct (up_left_level c1) as [h|] eqn:UL.
    + match type of St with (if ?b then _ else _) = _ => destruct b end.
      * injection St as <-. exists (inr s1), st1. split; [reflexivity|]. split; [exact Q1|]. now apply cpost_refl.
      * inv_panic St. destruct (up_or_panic_sim _ _ _ _ R1 Un1 U2) as (s2 & st2 & E & P).
        exists (inl s2), st2. rewrite (s_bind_Ok _ _ _ _ _ E). split; [reflexivity|]. split; [|exact P].
        apply (up_keeps_r_nil c1 c2 Q1). exact U2.
    + injection St as <-. exists (inr s1), st1. split; [reflexivity|]. split; [exact Q1|]. now apply cpost_refl.
  - destruct P as [P1 P]. exists sc', st'. auto.
Qed.

Lemma join_left_down_sim lev st sc c c' k : crep st sc c -> uniq (own c) -> r_forest c = [] ->
  join_left_down lev c = Ok c' -> S (ot_size (c_tree c)) <= k ->
  exists sc' st', sc_join_left_down k lev sc st = Ok (sc', st') /\ r_forest c' = [] /\ cpost st c st' sc' c'.
Proof.
  intros H Un O U K. unfold join_left_down in U.
  unfold sc_join_left_down. cursor_loop_with (fun c1 : cursor A => r_forest c1 = []) U k sc' st' E P; auto.
  - intros c1 st1 s1 x Q1 R1 Un1 St.
    assert (Lv : sc_peek_level s1 = peek_level c1).
    { unfold sc_peek_level, peek_level. pose proof (i_top _ _ _ (proj1 R1)) as HT.
      destruct (sc_tree s1), (c_tree c1); simpl in *; try contradiction; auto. destruct HT. congruence. }
    rewrite Lv. destruct (peek_level c1) as [h|] eqn:UL.
    + match type of St with (if ?b then _ else _) = _ => destruct b end.
      * injection St as <-. exists (inr s1), st1. split; [reflexivity|]. split; [exact Q1|]. now apply cpost_refl.
      * destruct (down_right_force ForceYes c1) as [b c2] eqn:D.
        apply bind_Ok in St. destruct St as ([] & As & St). injection St as <-.
        apply crep_nrep in R1. destruct R1 as [N1 L1].
        destruct (down_right_sim ForceYes _ _ _ _ _ N1 ltac:(discriminate) D) as (s2 & E & N2 & S2 & F2 & L2).
        exists (inl s2), st1. rewrite (s_bind_Ok _ _ _ _ _ E), As. split; [reflexivity|]. split; [auto|].
        split; [apply crep_nrep; auto|]. split; [apply upto_refl|exact S2].
    + injection St as <-. exists (inr s1), st1. split; [reflexivity|]. split; [exact Q1|]. now apply cpost_refl.
  - destruct P as [P1 P]. exists sc', st'. auto.
Qed.

Lemma join_right_up_sim lev st sc c c' k : crep st sc c -> uniq (own c) -> l_forest c = [] ->
  join_right_up lev c = Ok c' -> S (forest_len c) <= k ->
  exists sc' st', sc_join_right_up k lev sc st = Ok (sc', st') /\ l_forest c' = [] /\ cpost st c st' sc' c'.
Proof.
  intros H Un O U K. unfold join_right_up in U.
  unfold sc_join_right_up. cursor_loop_with (fun c1 : cursor A => l_forest c1 = []) U k sc' st' E P; auto.
  - intros c1 st1 s1 x Q1 R1 Un1 St.
    assert (Lv : sc_up_right_level s1 = up_right_level c1).
    { unfold sc_up_right_level, up_right_level. destruct (i_r _ _ _ (proj1 R1)) as [|[? ?] [? ?] ? ? [_ (HL & _)] _]; simpl in *; congruence. }
    rewrite Lv. destruct (up_right_level c1) as [h|] eqn:UL.
    + match type of St with (if ?b then _ else _) = _ => destruct b end.
      * injection St as <-. exists (inr s1), st1. split; [reflexivity|]. split; [exact Q1|]. now apply cpost_refl.
      * inv_panic St. destruct (up_or_panic_sim _ _ _ _ R1 Un1 U2) as (s2 & st2 & E & P).
        exists (inl s2), st2. rewrite (s_bind_Ok _ _ _ _ _ E). split; [reflexivity|]. split; [|exact P].
        apply (up_keeps_l_nil c1 c2 Q1). exact U2.
    + injection St as <-. exists (inr s1), st1. split; [reflexivity|]. split; [exact Q1|]. now apply cpost_refl.
  - destruct P as [P1 P]. exists sc', st'. auto.
Qed.

Lemma join_right_down_sim lev st sc c c' k : crep st sc c -> uniq (own c) -> l_forest c = [] ->
  join_right_down lev c = Ok c' -> S (ot_size (c_tree c)) <= k ->
  exists sc' st', sc_join_right_down k lev sc st = Ok (sc', st') /\ l_forest c' = [] /\ cpost st c st' sc' c'.
Proof.
  intros H Un O U K. unfold join_right_down in U.
  unfold sc_join_right_down. cursor_loop_with (fun c1 : cursor A => l_forest c1 = []) U k sc' st' E P; auto.
  - intros c1 st1 s1 x Q1 R1 Un1 St.
    assert (Lv : sc_peek_level s1 = peek_level c1).
    { unfold sc_peek_level, peek_level. pose proof (i_top _ _ _ (proj1 R1)) as HT.
      destruct (sc_tree s1), (c_tree c1); simpl in *; try contradiction; auto. destruct HT. congruence. }
    rewrite Lv. destruct (peek_level c1) as [h|] eqn:UL.
    + match type of St with (if ?b then _ else _) = _ => destruct b end.
      * injection St as <-. exists (inr s1), st1. split; [reflexivity|]. split; [exact Q1|]. now apply cpost_refl.
      * destruct (down_left_force ForceYes c1) as [b c2] eqn:D.
        apply bind_Ok in St. destruct St as ([] & As & St). injection St as <-.
        apply crep_nrep in R1. destruct R1 as [N1 L1].
        destruct (down_left_sim ForceYes _ _ _ _ _ N1 ltac:(discriminate) D) as (s2 & E & N2 & S2 & F2 & L2).
        exists (inl s2), st1. rewrite (s_bind_Ok _ _ _ _ _ E), As. split; [reflexivity|]. split; [auto|].
        split; [apply crep_nrep; auto|]. split; [apply upto_refl|exact S2].
    + injection St as <-. exists (inr s1), st1. split; [reflexivity|]. split; [exact Q1|]. now apply cpost_refl.
  - destruct P as [P1 P]. exists sc', st'. auto.
Qed.

(** *** join *)
Ltac cframe H P := eapply crep_frame in H; [|exact P|names].
Lemma join_sim lc lev nm data rc c' : c_join lc lev nm data rc = Ok c' ->
  ev (fun k => forall st slc src, crep st slc lc -> crep st src rc ->
    uniq (own lc ++ own rc ++ oroot nm) ->
    exists sc' st', sc_join k slc lev nm data src st = Ok (sc', st') /\ crep st' sc' c' /\
      upto (own lc ++ own rc ++ oroot nm) st st' /\ sub (own c') (own lc ++ own rc ++ oroot nm)).
Proof.
  intros J. unfold c_join in J.
  apply bind_Ok in J. destruct J as (l1 & J1 & J). apply bind_Ok in J. destruct J as (r1 & J2 & J).
  apply bind_Ok in J. destruct J as (l2 & J3 & J). apply bind_Ok in J. destruct J as (l3 & J4 & J).
  apply bind_Ok in J. destruct J as (r2 & J5 & J). apply bind_Ok in J. destruct J as (r3 & J6 & J).
  apply bind_Ok in J. destruct J as (d' & RB & J). rewrite tree_new_eq in J. simpl in J. injection J as <-.
  exists (S (forest_len lc) + S (forest_len rc) + S (forest_len l1) + S (ot_size (c_tree l2)) +
          S (forest_len r1) + S (ot_size (c_tree r2))).
  intros k K st slc src Hl Hr Un. unfold sc_join.
  destruct (clear_right_sim _ _ _ _ k Hl ltac:(names) J1 ltac:(lia)) as (sl1 & st1 & E1 & F1 & (C1 & P1 & S1)).
  rewrite (s_bind_Ok _ _ _ _ _ E1).
  cframe Hr P1.
  destruct (clear_left_sim _ _ _ _ k Hr ltac:(names) J2 ltac:(lia)) as (sr1 & st2 & E2 & F2 & (C2 & P2 & S2)).
  rewrite (s_bind_Ok _ _ _ _ _ E2).
  cframe C1 P2.
  destruct (join_left_up_sim lev _ _ _ _ k C1 ltac:(names) F1 J3 ltac:(lia)) as (sl2 & st3 & E3 & F3 & (C3 & P3 & S3)).
  rewrite (s_bind_Ok _ _ _ _ _ E3).
  destruct (join_left_down_sim lev _ _ _ _ k C3 ltac:(names) F3 J4 ltac:(lia)) as (sl3 & st4 & E4 & F4 & (C4 & P4 & S4)).
  rewrite (s_bind_Ok _ _ _ _ _ E4).
  cframe C2 P3.
  cframe C2 P4.
  destruct (join_right_up_sim lev _ _ _ _ k C2 ltac:(names) F2 J5 ltac:(lia)) as (sr2 & st5 & E5 & F5 & (C5 & P5 & S5)).
  rewrite (s_bind_Ok _ _ _ _ _ E5).
  destruct (join_right_down_sim lev _ _ _ _ k C5 ltac:(names) F5 J6 ltac:(lia)) as (sr3 & st6 & E6 & F6 & (C6 & P6 & S6)).
  rewrite (s_bind_Ok _ _ _ _ _ E6).
  cframe C4 P5.
  cframe C4 P6.
  apply crep_nrep in C4. destruct C4 as [[Hd1 Hl1 Hr1 Ht1] _].
  apply crep_nrep in C6. destruct C6 as [[Hd2 Hl2 Hr2 Ht2] _].
  rewrite (s_bind_Ok _ _ _ _ _ (peek_op_rep _ _ _ Ht1)).
  rewrite (s_bind_Ok _ _ _ _ _ (peek_op_rep _ _ _ Ht2)).
  rewrite RB. unfold s_bind at 1, s_lift at 1.
  destruct (tree_new_rep st6 lev nm d' (sc_tree sl3) (sc_tree sr3)) as (s' & st7 & N & Up & N1 & N2 & N3).
  rewrite (s_bind_Ok _ _ _ _ _ N). unfold s_bind, s_lift. simpl.
  assert (B : sub (own l3 ++ own r3) (own lc ++ own rc)) by names.
  assert (B' : sub (oroot nm ++ otnames (c_tree l3) ++ otnames (c_tree r3) ++ lown (l_forest l3) ++ rown (r_forest r3))
                  (own lc ++ own rc ++ oroot nm)).
  { clear - B. unfold own in B at 1 2. unfold fown in B. names. }
  do 2 eexists. split; [reflexivity|]. split; [|split].
  - apply crep_nrep. split; [|apply sl_dirty]. constructor; simpl; auto.
    + apply (litems_frame _ st6 st7 _ _ Up); [names|exact Hl1].
    + apply (ritems_frame _ st6 st7 _ _ Up); [names|exact Hr2].
    + split; [exact N1|]. split; [exact N2|]. exists (sc_tree sl3), (sc_tree sr3). split; [exact N3|].
      split; [apply (orep_frame _ st6 st7 _ _ Up); [names|exact Ht1]|apply (orep_frame _ st6 st7 _ _ Up); [names|exact Ht2]].
  - intros [q n] [Hn|Hn]; [now rewrite Up, P6, P5, P4, P3, P2, P1 by (left; exact Hn)|]. simpl in Hn.
    rewrite Up by (right; clear - Hn; simpl; rewrite !cnt_app in Hn; lia).
    rewrite !cnt_app in Hn. clear - Hn P1 P2 P3 P4 P5 P6 S1 S2 S3 S4 S5 S6. spec_names n.
    rewrite P6, P5, P4, P3, P2, P1 by (right; simpl; lia). reflexivity.
  - eapply sub_trans; [|exact B']. unfold own, fown. cbn [c_tree l_forest r_forest otnames].
    rewrite tnames_eq. cbn [t_name t_left t_right]. names.
Qed.

End Tree.
