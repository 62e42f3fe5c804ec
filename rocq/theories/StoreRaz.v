(** * Proofs about the store model, part 2: archive stacks and the Raz. *)

From Verif Require Import Base BaseFacts SpecRaz StackModel AStackModel LevelTreeModel TreeCursorModel
  RazMetaModel RazModel RazScripts StoreModel StoreScripts TreeProofs CursorProofs StoreProofs.

Section Stacks.
Context {T A : Type} {Nsp : here}.
Notation store := (store T A).

Fixpoint hnames (h : head T) : list name :=
  match h with
  | Head nm _ nx => oroot nm ++ match nx with None => [] | Some h1 => hnames h1 end
  end.
Definition ohnames (o : option (head T)) : list name := match o with None => [] | Some h => hnames h end.

Definition sh_name (s : shead T) : option name := match s with HPut _ _ => None | HCell a => Some (snd a) end.

(** The handle [s] represents the list [h]. *)
Fixpoint hrep (st : store) (s : shead T) (h : head T) {struct h} : Prop :=
  match h with
  | Head nm e nx =>
      sh_name s = nm /\ exists sn, head_look st s = Some (e, sn) /\
        match sn, nx with
        | None, None => True
        | Some s1, Some h1 => hrep st s1 h1
        | _, _ => False
        end
  end.
Definition ohrep (st : store) (so : option (shead T)) (o : option (head T)) : Prop :=
  match so, o with
  | None, None => True
  | Some s, Some h => hrep st s h
  | _, _ => False
  end.

Lemma hrep_eq st s h : hrep st s h <-> sh_name s = head_name h /\
  exists sn, head_look st s = Some (head_peek h, sn) /\ ohrep st sn (head_pull h).
Proof. destruct h. reflexivity. Qed.
Lemma hnames_eq h : hnames h = oroot (head_name h) ++ ohnames (head_pull h).
Proof. now destruct h. Qed.

Fixpoint head_induction (P : head T -> Prop)
    (H0 : forall nm e, P (Head nm e None)) (H1 : forall nm e h, P h -> P (Head nm e (Some h)))
    (h : head T) : P h :=
  match h with
  | Head nm e None => H0 nm e
  | Head nm e (Some h1) => H1 nm e h1 (head_induction P H0 H1 h1)
  end.

Lemma head_look_frame L (st st' : store) s : upto L st st' -> apart (oroot (sh_name s)) L ->
  head_look st' s = head_look st s.
Proof.
  intros U D. destruct s as [e nx|[q n]]; simpl; auto. rewrite U; auto. right. simpl.
  destruct (D n) as [D'|D']; auto. simpl in D'. unfold cnt in D'. simpl in D'.
  destruct (name_eq_dec n n); [discriminate|congruence].
Qed.
Lemma hrep_frame L (st st' : store) h : forall s, upto L st st' -> apart (hnames h) L ->
  hrep st s h -> hrep st' s h.
Proof.
  induction h as [nm e|nm e h IH] using head_induction; intros s U D H; apply hrep_eq in H;
    destruct H as (H1 & sn & H2 & H3); apply hrep_eq; simpl in *; (split; [exact H1|]); exists sn.
  - rewrite (head_look_frame L st st' s U) by (rewrite H1; names). auto.
  - rewrite (head_look_frame L st st' s U) by (rewrite H1; names).
    split; [exact H2|]. destruct sn as [s1|]; simpl in *; auto. apply IH; auto. names.
Qed.
Lemma ohrep_frame L (st st' : store) so o : upto L st st' -> apart (ohnames o) L ->
  ohrep st so o -> ohrep st' so o.
Proof. destruct so, o; simpl; auto. intros U D. now apply (hrep_frame L). Qed.

Lemma force_head_Ok (st : store) s x : head_look st s = Some x -> s_force_head s st = Ok (x, st).
Proof. intros H. unfold s_force_head. now rewrite H. Qed.

Lemma stack_empty_sim (st : store) so o : ohrep st so o -> ss_is_empty so = stack_is_empty o.
Proof. destruct so, o; simpl; intros H; try contradiction; reflexivity. Qed.
Lemma stack_name_sim (st : store) so o : ohrep st so o -> ss_name so = stack_name o.
Proof.
  destruct so as [s|], o as [h|]; simpl; intros H; try contradiction; auto.
  apply hrep_eq in H. destruct H as (H & _). rewrite <- H. now destruct s.
Qed.
Lemma stack_peek_sim (st : store) so o : ohrep st so o -> ss_peek so st = Ok (stack_peek o, st).
Proof.
  destruct so as [s|], o as [h|]; simpl; intros H; try contradiction; auto.
  apply hrep_eq in H. destruct H as (_ & sn & H & _).
  now rewrite (s_bind_Ok _ _ _ _ _ (force_head_Ok _ _ _ H)).
Qed.
Lemma stack_pull_sim (st : store) so o : ohrep st so o ->
  match stack_pull o with
  | None => ss_pull so st = Ok (None, st)
  | Some r => exists sr, ss_pull so st = Ok (Some sr, st) /\ ohrep st sr r
  end.
Proof.
  destruct so as [s|], o as [h|]; simpl; intros H; try contradiction; auto.
  apply hrep_eq in H. destruct H as (_ & sn & H & H2).
  rewrite (s_bind_Ok _ _ _ _ _ (force_head_Ok _ _ _ H)). exists sn. auto.
Qed.
Lemma iter_next_sim (st : store) so o : ohrep st so o ->
  exists so', ss_iter_next so st = Ok ((fst (iter_next o), so'), st) /\ ohrep st so' (snd (iter_next o)).
Proof.
  destruct so as [s|], o as [h|]; simpl; intros H; try contradiction.
  - apply hrep_eq in H. destruct H as (_ & sn & H & H2).
    rewrite (s_bind_Ok _ _ _ _ _ (force_head_Ok _ _ _ H)). exists sn. destruct h; auto.
  - exists None. auto.
Qed.
Lemma stack_push_sim (st : store) so o nm e : ohrep st so o -> apart (ohnames o) (oroot nm) ->
  exists so' st', ss_push so nm e st = Ok (so', st') /\ ohrep st' so' (stack_push o nm e) /\
    upto (oroot nm) st st' /\ ohnames (stack_push o nm e) = oroot nm ++ ohnames o.
Proof.
  intros H D. unfold ss_push, s_push_onto, stack_push. destruct nm as [n|].
  - do 2 eexists. split; [reflexivity|]. split; [|split; [apply write_upto|reflexivity]].
    apply hrep_eq. split; [reflexivity|]. exists so. split; [simpl; now rewrite write_same|].
    apply (ohrep_frame [n] st); auto. apply write_upto.
  - do 2 eexists. split; [reflexivity|]. split; [|split; [apply upto_refl|reflexivity]].
    apply hrep_eq. split; [reflexivity|]. exists so. auto.
Qed.
End Stacks.

Section AStacks.
Context {E M A : Type} {Nsp : here}.
Notation store := (store (M * list E) A).
Implicit Types (st : store) (s : sastack E M) (a : astack E M).

Definition arep st s a : Prop :=
  sa_current s = current a /\ ohrep st (sa_archived s) (archived a).

Lemma arep_frame L st st' s a : upto L st st' -> apart (ohnames (archived a)) L ->
  arep st s a -> arep st' s a.
Proof. intros U D [H1 H2]. split; [exact H1|]. now apply (ohrep_frame L st). Qed.
Lemma sa_empty_sim st s a : arep st s a -> sa_is_empty s = as_is_empty a.
Proof.
  intros [H1 H2]. unfold sa_is_empty, as_is_empty. rewrite H1. now rewrite (stack_empty_sim _ _ _ H2).
Qed.
Lemma sa_name_sim st s a : arep st s a -> sa_name s = as_name a.
Proof. intros [_ H]. apply (stack_name_sim _ _ _ H). Qed.

Lemma stack_pull_names (o : stack (M * list E)) r : stack_pull o = Some r ->
  ohnames o = oroot (stack_name o) ++ ohnames r.
Proof. destruct o as [h|]; simpl; [|discriminate]. intros H. injection H as <-. now destruct h. Qed.

Ltac lift := unfold s_bind at 1, s_lift at 1; cbn [unwrap].

Lemma sa_retrieve_sim st s a o a' : arep st s a -> as_retrieve a = Ok (o, a') ->
  exists s', sa_retrieve s st = Ok ((o, s'), st) /\ arep st s' a' /\
    sub (ohnames (archived a')) (ohnames (archived a)).
Proof.
  intros [H1 H2] R. unfold as_retrieve in R. unfold sa_retrieve. rewrite H1.
  destruct (current a) as [|e v] eqn:C.
  - apply bind_Ok in R. destruct R as ([m v] & R1 & R). apply bind_Ok in R. destruct R as (r & R2 & R).
    injection R as <- <-.
    rewrite (s_bind_Ok _ _ _ _ _ (stack_peek_sim _ _ _ H2)).
    destruct (stack_peek (archived a)) as [[m' v']|]; [|discriminate]. simpl in R1. injection R1 as -> ->.
    lift. pose proof (stack_pull_sim _ _ _ H2) as Pl.
    destruct (stack_pull (archived a)) as [r'|] eqn:SP; [|discriminate]. simpl in R2. injection R2 as ->.
    destruct Pl as (sr & Pl & Hr). rewrite (s_bind_Ok _ _ _ _ _ Pl). lift.
    eexists. split; [reflexivity|]. split; [split; auto|]. simpl. rewrite (stack_pull_names _ _ SP). names.
  - injection R as <- <-. exists s. split; [reflexivity|]. split; [|apply sub_refl].
    split; [now rewrite C|exact H2].
Qed.

Lemma sa_pop_sim st s a o a' : arep st s a -> as_pop a = Ok (o, a') ->
  exists s', sa_pop s st = Ok ((o, s'), st) /\ arep st s' a' /\
    sub (ohnames (archived a')) (ohnames (archived a)).
Proof.
  intros H R. unfold as_pop in R. unfold sa_pop. rewrite (sa_empty_sim _ _ _ H).
  destruct (as_is_empty a).
  - injection R as <- <-. exists s. split; [reflexivity|]. split; [exact H|apply sub_refl].
  - apply bind_Ok in R. destruct R as ([m a1] & R1 & R).
    destruct (sa_retrieve_sim _ _ _ _ _ H R1) as (s1 & E1 & [H1 H2] & S1).
    rewrite (s_bind_Ok _ _ _ _ _ E1). rewrite H1. destruct (vec_pop (current a1)) as [e v].
    injection R as <- <-. eexists. split; [reflexivity|]. split; [split; auto|exact S1].
Qed.

Lemma sa_pop_meta_sim st s a o a' : arep st s a -> as_pop_meta a = Ok (o, a') ->
  exists s', sa_pop_meta s st = Ok ((o, s'), st) /\ arep st s' a' /\
    sub (ohnames (archived a')) (ohnames (archived a)).
Proof.
  intros H R. unfold as_pop_meta in R. unfold sa_pop_meta. rewrite (sa_empty_sim _ _ _ H).
  destruct (as_is_empty a).
  - injection R as <- <-. exists s. split; [reflexivity|]. split; [exact H|apply sub_refl].
  - apply bind_Ok in R. destruct R as ([m a1] & R1 & R).
    destruct (sa_retrieve_sim _ _ _ _ _ H R1) as (s1 & E1 & [H1 H2] & S1).
    rewrite (s_bind_Ok _ _ _ _ _ E1). rewrite H1. destruct (vec_pop (current a1)) as [e v].
    injection R as <- <-. eexists. split; [reflexivity|]. split; [split; auto|exact S1].
Qed.

Lemma sa_peek_sim st s a o : arep st s a -> as_peek a = Ok o -> sa_peek s st = Ok (o, st).
Proof.
  intros H R. unfold as_peek in R. unfold sa_peek. rewrite (sa_empty_sim _ _ _ H).
  destruct (as_is_empty a); [injection R as <-; reflexivity|]. destruct H as [H1 H2]. rewrite H1.
  destruct (current a) as [|e v].
  - apply bind_Ok in R. destruct R as ([m v] & R1 & R). apply bind_Ok in R. destruct R as (e & R2 & R).
    injection R as <-. rewrite (s_bind_Ok _ _ _ _ _ (stack_peek_sim _ _ _ H2)). rewrite R1.
    unfold s_bind, s_lift. rewrite R2. reflexivity.
  - apply bind_Ok in R. destruct R as (e' & R2 & R). injection R as <-. rewrite R2. reflexivity.
Qed.

Lemma sa_next_archive_sim st s a o a' : arep st s a -> as_next_archive a = Ok (o, a') ->
  exists s', sa_next_archive s st = Ok ((o, s'), st) /\ arep st s' a' /\
    ohnames (archived a) = oroot (as_name a) ++ ohnames (archived a').
Proof.
  intros H R. unfold as_next_archive in R. unfold sa_next_archive. rewrite (sa_empty_sim _ _ _ H).
  destruct (as_is_empty a) eqn:Em.
  - injection R as <- <-. exists s. split; [reflexivity|]. split; [exact H|].
    unfold as_is_empty, as_name in *. destruct (current a), (archived a); try discriminate. reflexivity.
  - destruct H as [H1 H2]. rewrite (stack_empty_sim _ _ _ H2).
    destruct (stack_is_empty (archived a)) eqn:SE.
    + injection R as <- <-. rewrite H1. eexists. split; [reflexivity|]. split; [split; simpl; auto|].
      unfold as_name. destruct (archived a); [discriminate|]. reflexivity.
    + apply bind_Ok in R. destruct R as ([m v] & R1 & R). apply bind_Ok in R. destruct R as (r & R2 & R).
      injection R as <- <-. rewrite H1.
      rewrite (s_bind_Ok _ _ _ _ _ (stack_peek_sim _ _ _ H2)), R1. lift.
      pose proof (stack_pull_sim _ _ _ H2) as Pl.
      destruct (stack_pull (archived a)) as [r'|] eqn:SP; [|discriminate]. simpl in R2. injection R2 as ->.
      destruct Pl as (sr & Pl & Hr). rewrite (s_bind_Ok _ _ _ _ _ Pl). lift.
      eexists. split; [reflexivity|]. split; [split; auto|]. simpl. apply (stack_pull_names _ _ SP).
Qed.

Lemma sa_archive_sim st s a nm m : arep st s a -> apart (ohnames (archived a)) (oroot nm) ->
  exists s' st', sa_archive s nm m st = Ok ((fst (as_archive a nm m), s'), st') /\
    arep st' s' (snd (as_archive a nm m)) /\ upto (oroot nm) st st' /\
    sub (ohnames (archived (snd (as_archive a nm m)))) (oroot nm ++ ohnames (archived a)).
Proof.
  intros [H1 H2] D. unfold sa_archive, as_archive, as_archive_with_capacity. rewrite H1.
  destruct (current a) as [|e v] eqn:C.
  - exists s, st. split; [reflexivity|]. split; [split; simpl; congruence|]. split; [apply upto_refl|].
    simpl. names.
  - destruct (stack_push_sim st _ _ nm (m, e :: v) H2 D) as (so' & st' & P & R & U & N).
    rewrite (s_bind_Ok _ _ _ _ _ P). do 2 eexists. split; [reflexivity|]. cbn [fst snd].
    split; [split; [reflexivity|exact R]|]. split; [exact U|]. cbn [archived]. rewrite N. names.
Qed.
End AStacks.

(** ** Raz *)
Section Raz.
Context {E M : Type} {RM : RazMeta E M} {Nsp : here}.
Notation rdata := (tree_data E M).
Notation store := (store (level * list E) rdata).
Implicit Types (st : store).

(** [rebuild] looks at the old data only to see whether it is a leaf. *)
Definition same_kind (d d' : rdata) : Prop :=
  d = d' \/ (forall v, d <> Leaf v) /\ (forall v, d' <> Leaf v).
Lemma same_refl d : same_kind d d.
Proof. now left. Qed.
Lemma same_trans a b c : same_kind a b -> same_kind b c -> same_kind a c.
Proof. intros [->|[H1 H2]] [<-|[H3 H4]]; unfold same_kind; auto. Qed.
Lemma same_reb l d d' lv nm r : same_kind d d' -> rebuild l d lv nm r = rebuild l d' lv nm r.
Proof.
  intros [->|[H1 H2]]; [reflexivity|].
  destruct d as [| |v], d' as [| |v']; try reflexivity; exfalso;
    first [eapply H1; reflexivity|eapply H2; reflexivity].
Qed.
Lemma same_out l d lv nm r d' : rebuild l d lv nm r = Ok d' -> same_kind d' d.
Proof.
  unfold rebuild, td_update, td_rebuild. destruct d as [|a b|v]; intros H.
  1,2: right; apply bind_Ok in H; destruct H as (ml & _ & H); apply bind_Ok in H;
       destruct H as (mr & _ & H); injection H as <-; split; discriminate.
  injection H as <-. now left.
Qed.

Notation crep := (crep same_kind).
Notation irep := (irep same_kind).
Notation nrep := (nrep same_kind).
Notation linked_to := (@linked_to (level * list E) rdata).
Local Notation r1 L := (L same_kind same_refl) (only parsing).
Local Notation r3 L := (L same_kind same_refl same_reb same_out) (only parsing).

Definition snames (a : astack E level) : list name := ohnames (archived a).
Definition tnm (n : name) : name := NPair n (NStr "tree").
Definition anames (a : astack E level) : list name := snames a ++ map tnm (snames a).

Lemma anames_snames a : sub (snames a) (anames a).
Proof. unfold anames. names. Qed.
Lemma cnt_map_sub l' l : sub l' l -> sub (map tnm l') (map tnm l).
Proof.
  intros H n. assert (I : forall x y, tnm x = tnm y -> x = y) by (intros x y Q; now injection Q).
  unfold cnt. destruct (in_dec name_eq_dec n (map tnm l')) as [D|D].
  - apply in_map_iff in D. destruct D as (m & <- & _).
    rewrite <- !(count_occ_map tnm name_eq_dec name_eq_dec I). apply H.
  - apply (count_occ_not_In name_eq_dec) in D. lia.
Qed.
Lemma anames_sub a a' : sub (snames a') (snames a) -> sub (anames a') (anames a).
Proof. intros H. pose proof (cnt_map_sub _ _ H). unfold anames. names. Qed.
Lemma anames_next a a' : snames a = oroot (as_name a) ++ snames a' ->
  sub (anames a) (oroot (as_name a) ++ oroot (tree_name (as_name a)) ++ anames a') /\
  sub (oroot (as_name a) ++ oroot (tree_name (as_name a)) ++ anames a') (anames a).
Proof.
  intros H. assert (X : forall n,
    cnt n (anames a) = cnt n (oroot (as_name a)) + cnt n (oroot (tree_name (as_name a))) + cnt n (anames a')).
  { intros n. unfold anames. rewrite H, map_app, !cnt_app.
    replace (map tnm (oroot (as_name a))) with (oroot (tree_name (as_name a))) by now destruct (as_name a).
    lia. }
  split; intros n; rewrite (X n), !cnt_app; lia.
Qed.

(** ** The focused Raz *)
Record zrep st (sz : sraz_z E M) (z : raz E M) : Prop := {
  zr_lf : crep st (sz_lf sz) (z_l_forest z);
  zr_rf : crep st (sz_rf sz) (z_r_forest z);
  zr_l_nil : r_forest (z_l_forest z) = [];
  zr_r_nil : l_forest (z_r_forest z) = [];
  zr_ls : arep st (sz_ls sz) (z_l_stack z);
  zr_rs : arep st (sz_rs sz) (z_r_stack z)
}.
Definition zown (z : raz E M) : list name :=
  own (z_l_forest z) ++ own (z_r_forest z) ++ anames (z_l_stack z) ++ anames (z_r_stack z).

Ltac stacks :=
  repeat match goal with
  | a : astack E level |- _ => lazymatch goal with
      | _ : sub (snames a) (anames a) |- _ => fail
      | _ => pose proof (anames_snames a) end
  | |- context [anames ?a] => lazymatch goal with
      | _ : sub (snames a) (anames a) |- _ => fail
      | _ => pose proof (anames_snames a) end
  | _ : context [anames ?a] |- _ => lazymatch goal with
      | _ : sub (snames a) (anames a) |- _ => fail
      | _ => pose proof (anames_snames a) end
  end.

Lemma arep_frame' L st st' s a : upto L st st' -> apart (anames a) L -> arep st s a -> arep st' s a.
Proof.
  intros U D. apply (arep_frame L); auto. pose proof (anames_snames a). unfold snames in *. names.
Qed.

Lemma zrep_frame L st st' sz z : upto L st st' -> apart (zown z) L -> zrep st sz z -> zrep st' sz z.
Proof.
  intros U D [H1 H2 H3 H4 H5 H6]. unfold zown in D. constructor; auto.
  - apply (crep_frame same_kind L st); auto. names.
  - apply (crep_frame same_kind L st); auto. names.
  - apply (arep_frame' L st); auto. names.
  - apply (arep_frame' L st); auto. names.
Qed.

(** *** Moving within a cursor *)
Lemma peek_sim st sc c : nrep st sc c -> sc_peek sc st = Ok (c_peek c, st).
Proof. intros H. unfold sc_peek, c_peek. apply peek_op_rep. apply (n_tree _ _ _ _ H). Qed.

Lemma as_extend_rep st s a v : arep st s a -> arep st (sa_extend s v) (as_extend a v).
Proof. intros [H1 H2]. split; simpl; [now rewrite H1|exact H2]. Qed.
Lemma as_extend_rev_rep st s a v : arep st s a -> arep st (sa_extend_rev s v) (as_extend_rev a v).
Proof. intros [H1 H2]. split; simpl; [now rewrite H1|exact H2]. Qed.
Lemma as_push_rep st s a v : arep st s a -> arep st (sa_push s v) (as_push a v).
Proof. intros [H1 H2]. split; simpl; [now rewrite H1|exact H2]. Qed.

(** The step both pops and the last part of [unfocus] share: up, then back to the
    kept side, discarding. *)
Lemma up_left_discard st sc c u c1 : irep st sc c -> r_forest c = [] -> uniq (fown c) ->
  up c = Ok (u, c1) -> up_failed u = false ->
  exists sc1 st1 sc2, sc_up sc st = Ok ((u, sc1), st1) /\ upto (fown c) st st1 /\
    sc_peek_level sc1 = peek_level c1 /\ sc_peek_name sc1 = peek_name c1 /\
    sc_down_left_force ForceDiscard sc1 st1 = Ok ((true, sc2), st1) /\
    crep st1 sc2 (snd (down_left_force ForceDiscard c1)) /\
    sub (own (snd (down_left_force ForceDiscard c1)) ++ oroot (peek_name c1)) (fown c) /\
    r_forest (snd (down_left_force ForceDiscard c1)) = [].
Proof.
  intros H Nil Un U F.
  destruct (r3 up_sim _ _ _ _ _ H Un U) as (sc1 & st1 & E1 & P).
  pose proof (up_tree _ _ _ _ _ _ _ _ P) as X.
  destruct u; [discriminate| |destruct X as (d & s & t & t0 & _ & _ & _ & X & _); congruence].
  destruct X as (d & s & t & t0 & X1 & X2 & X3 & X4 & X5 & X6 & X7).
  destruct (discard_left_sim same_kind _ _ _ _ _ (up_irep _ _ _ _ _ _ _ _ P) X1 X2 X3) as (sc2 & E2 & C2 & O2).
  exists sc1, st1, sc2. split; [exact E1|]. split; [apply (up_upto _ _ _ _ _ _ _ _ P)|].
  assert (PN : peek_name c1 = t_name t0) by (unfold peek_name; rewrite X2; simpl; congruence).
  split; [unfold sc_peek_level, peek_level; rewrite X1, X2; simpl; f_equal; apply X3|].
  split; [unfold sc_peek_name, peek_name; rewrite X1, X2; simpl; apply X3|].
  split; [exact E2|]. split; [exact C2|].
  split.
  - rewrite O2, PN. unfold fown. rewrite X4, X5, X7. cbn [lown]. names.
  - unfold down_left_force. rewrite X2. rewrite <- X5 in Nil. destruct (t_left t); exact Nil.
Qed.
Lemma up_right_discard st sc c u c1 : irep st sc c -> l_forest c = [] -> uniq (fown c) ->
  up c = Ok (u, c1) -> up_failed u = false ->
  exists sc1 st1 sc2, sc_up sc st = Ok ((u, sc1), st1) /\ upto (fown c) st st1 /\
    sc_peek_level sc1 = peek_level c1 /\ sc_peek_name sc1 = peek_name c1 /\
    sc_down_right_force ForceDiscard sc1 st1 = Ok ((true, sc2), st1) /\
    crep st1 sc2 (snd (down_right_force ForceDiscard c1)) /\
    sub (own (snd (down_right_force ForceDiscard c1)) ++ oroot (peek_name c1)) (fown c) /\
    l_forest (snd (down_right_force ForceDiscard c1)) = [].
Proof.
  intros H Nil Un U F.
  destruct (r3 up_sim _ _ _ _ _ H Un U) as (sc1 & st1 & E1 & P).
  pose proof (up_tree _ _ _ _ _ _ _ _ P) as X.
  destruct u; [discriminate|destruct X as (d & s & t & t0 & _ & _ & _ & X & _); congruence|].
  destruct X as (d & s & t & t0 & X1 & X2 & X3 & X4 & X5 & X6 & X7).
  destruct (discard_right_sim same_kind _ _ _ _ _ (up_irep _ _ _ _ _ _ _ _ P) X1 X2 X3) as (sc2 & E2 & C2 & O2).
  exists sc1, st1, sc2. split; [exact E1|]. split; [apply (up_upto _ _ _ _ _ _ _ _ P)|].
  assert (PN : peek_name c1 = t_name t0) by (unfold peek_name; rewrite X2; simpl; congruence).
  split; [unfold sc_peek_level, peek_level; rewrite X1, X2; simpl; f_equal; apply X3|].
  split; [unfold sc_peek_name, peek_name; rewrite X1, X2; simpl; apply X3|].
  split; [exact E2|]. split; [exact C2|].
  split.
  - rewrite O2, PN. unfold fown. rewrite X4, X5, X7. cbn [rown]. names.
  - unfold down_right_force. rewrite X2. rewrite <- X5 in Nil. destruct (t_right t); exact Nil.
Qed.
(** *** One call *)
Definition fresh (o : zop E) : list name :=
  match o with
  | OArchL _ nm | OArchR _ nm => oroot nm ++ oroot (tree_name nm)
  | _ => []
  end.
Definition zpost st (L : list name) st' sz' z' : Prop :=
  zrep st' sz' z' /\ upto L st st' /\ sub (zown z') L.

Lemma pop_left_sim z x z' : pop_left z = Ok (x, z') ->
  ev (fun k => forall st sz, zrep st sz z -> uniq (zown z) ->
    exists sz' st', s_pop_left k sz st = Ok ((x, sz'), st') /\ zpost st (zown z) st' sz' z').
Proof.
  intros Z. unfold pop_left in Z. destruct (as_is_empty (z_l_stack z)) eqn:Em.
  - apply bind_Ok in Z. destruct Z as ([u c1] & U & Z). destruct (up_failed u) eqn:F.
    + injection Z as <- <-. apply ev_always. intros k st sz H Un.
      unfold s_pop_left. rewrite (sa_empty_sim _ _ _ (zr_ls _ _ _ H)), Em.
      unfold zown in Un. pose proof (fown_own (z_l_forest z)).
      destruct (r3 up_sim _ _ _ _ _ (proj1 (zr_lf _ _ _ H)) ltac:(names) U) as (sc1 & st1 & E1 & P).
      rewrite (s_bind_Ok _ _ _ _ _ E1), F.
      pose proof (up_tree _ _ _ _ _ _ _ _ P) as X. destruct u; try discriminate.
      destruct X as (-> & -> & ->). do 2 eexists. split; [reflexivity|].
      split; [|split; [apply upto_refl|unfold zown; simpl; names]].
      destruct H. constructor; auto.
    + destruct (down_left_force ForceDiscard c1) as [b2 c2] eqn:D2.
      apply bind_Ok in Z. destruct Z as (c3 & D3 & Z).
      destruct (c_peek c3) as [[| |v]|] eqn:P3; try discriminate.
      apply bind_Ok in Z. destruct Z as ([e a'] & Po & Z). injection Z as <- <-.
      exists (S (ot_size (c_tree c2))). intros k K st sz H Un. unfold zown in Un.
      pose proof (fown_own (z_l_forest z)).
      destruct (up_left_discard _ _ _ _ _ (proj1 (zr_lf _ _ _ H)) (zr_l_nil _ _ _ H) ltac:(names) U F)
        as (sc1 & st1 & sc2 & E1 & U1 & _ & _ & E2 & C2 & S2 & N2).
      rewrite D2 in C2, S2, N2. cbn [snd] in C2, S2, N2. apply crep_nrep in C2. destruct C2 as [C2 L2].
      destruct (r1 down_right_all_sim k _ _ _ _ C2 D3 K) as (sc3 & E3 & C3 & S3 & L3).
      destruct (L3 N2 L2) as [N3 L4].
      assert (Hs : arep st1 (sz_ls sz) (z_l_stack z)).
      { apply (arep_frame' (fown (z_l_forest z)) st); auto; [names|]. apply (zr_ls _ _ _ H). }
      destruct (sa_pop_sim _ _ _ _ _ (as_extend_rep _ _ _ v Hs) Po) as (s' & E4 & H4 & S4).
      unfold s_pop_left. rewrite (sa_empty_sim _ _ _ (zr_ls _ _ _ H)), Em.
      rewrite (s_bind_Ok _ _ _ _ _ E1), F. rewrite (s_bind_Ok _ _ _ _ _ E2).
      rewrite (s_bind_Ok _ _ _ _ _ E3). rewrite (s_bind_Ok _ _ _ _ _ (peek_sim _ _ _ C3)), P3.
      rewrite (s_bind_Ok _ _ _ _ _ E4). do 2 eexists. split; [reflexivity|].
      apply anames_sub in S4. change (anames (as_extend (z_l_stack z) v)) with (anames (z_l_stack z)) in S4.
      split; [|split].
      * constructor; simpl; auto.
        -- apply crep_nrep. auto.
        -- apply (crep_frame same_kind (fown (z_l_forest z)) st); auto; [names|]. apply (zr_rf _ _ _ H).
        -- apply (zr_r_nil _ _ _ H).
        -- apply (arep_frame' (fown (z_l_forest z)) st); auto; [names|]. apply (zr_rs _ _ _ H).
      * apply (upto_sub (fown (z_l_forest z))); [unfold zown; names|exact U1].
      * unfold zown. simpl. names.
  - apply bind_Ok in Z. destruct Z as ([e a'] & Po & Z). injection Z as <- <-.
    apply ev_always. intros k st sz H Un.
    unfold s_pop_left. rewrite (sa_empty_sim _ _ _ (zr_ls _ _ _ H)), Em.
    destruct (sa_pop_sim _ _ _ _ _ (zr_ls _ _ _ H) Po) as (s' & E4 & H4 & S4). apply anames_sub in S4.
    rewrite (s_bind_Ok _ _ _ _ _ E4). do 2 eexists. split; [reflexivity|].
    split; [|split; [apply upto_refl|unfold zown; simpl; names]]. destruct H. constructor; auto.
Qed.

Lemma peek_left_sim z x : peek_left z = Ok x ->
  ev (fun k => forall st sz, zrep st sz z -> uniq (zown z) ->
    exists st', s_peek_left k sz st = Ok (x, st') /\ zpost st (zown z) st' sz z).
Proof.
  intros Z. unfold peek_left in Z. destruct (as_is_empty (z_l_stack z)) eqn:Em.
  - apply bind_Ok in Z. destruct Z as ([u c1] & U & Z).
    assert (Up : forall st sz, zrep st sz z -> uniq (zown z) -> exists sc1 st1,
      sc_up (sz_lf sz) st = Ok ((u, sc1), st1) /\ crep st1 sc1 c1 /\ zpost st (zown z) st1 sz z).
    { intros st sz H Un. pose proof Un as Un'. unfold zown in Un. pose proof (fown_own (z_l_forest z)).
      pose proof (iown_own (z_l_forest z)).
      destruct (r3 up_sim _ _ _ _ _ (proj1 (zr_lf _ _ _ H)) ltac:(names) U) as (sc1 & st1 & E1 & P).
      pose proof (up_upto _ _ _ _ _ _ _ _ P) as U1.
      exists sc1, st1. split; [exact E1|]. split; [|split; [|split]].
      - split; [apply (up_irep _ _ _ _ _ _ _ _ P)|apply (up_rep _ _ _ _ _ _ _ _ P)].
        + apply (proj2 (zr_lf _ _ _ H)).
        + names.
      - constructor.
        + split; [apply (up_keeps _ _ _ _ _ _ _ _ P); names|].
          apply (orep_frame (fown (z_l_forest z)) st); auto; [unfold own in Un; names|].
          apply (proj2 (zr_lf _ _ _ H)).
        + apply (crep_frame same_kind (fown (z_l_forest z)) st); auto; [names|]. apply (zr_rf _ _ _ H).
        + apply (zr_l_nil _ _ _ H).
        + apply (zr_r_nil _ _ _ H).
        + apply (arep_frame' (fown (z_l_forest z)) st); auto; [names|]. apply (zr_ls _ _ _ H).
        + apply (arep_frame' (fown (z_l_forest z)) st); auto; [names|]. apply (zr_rs _ _ _ H).
      - apply (upto_sub (fown (z_l_forest z))); [unfold zown; names|exact U1].
      - apply sub_refl. }
    destruct (up_failed u) eqn:F.
    + injection Z as <-. apply ev_always. intros k st sz H Un.
      destruct (Up _ _ H Un) as (sc1 & st1 & E1 & _ & P). exists st1. split; [|exact P].
      unfold s_peek_left. rewrite (sa_empty_sim _ _ _ (zr_ls _ _ _ H)), Em.
      rewrite (s_bind_Ok _ _ _ _ _ E1), F. reflexivity.
    + destruct (down_left c1) as [b2 c2] eqn:D2.
      apply bind_Ok in Z. destruct Z as (c3 & D3 & Z).
      destruct (c_peek c3) as [[| |v]|] eqn:P3; try discriminate. injection Z as <-.
      exists (S (ot_size (c_tree c2))). intros k K st sz H Un.
      destruct (Up _ _ H Un) as (sc1 & st1 & E1 & C1 & P). exists st1. split; [|exact P].
      apply crep_nrep in C1. destruct C1 as [C1 _].
      destruct (r1 down_left_sim ForceNo _ _ _ _ _ C1 ltac:(discriminate) D2) as (sc2 & E2 & C2 & _).
      destruct (r1 down_right_all_sim k _ _ _ _ C2 D3 K) as (sc3 & E3 & C3 & _).
      unfold s_peek_left. rewrite (sa_empty_sim _ _ _ (zr_ls _ _ _ H)), Em.
      rewrite (s_bind_Ok _ _ _ _ _ E1), F. rewrite (s_bind_Ok _ _ _ _ _ E2).
      rewrite (s_bind_Ok _ _ _ _ _ E3). rewrite (s_bind_Ok _ _ _ _ _ (peek_sim _ _ _ C3)), P3.
      reflexivity.
  - apply ev_always. intros k st sz H Un. exists st.
    unfold s_peek_left. rewrite (sa_empty_sim _ _ _ (zr_ls _ _ _ H)), Em.
    split; [apply (sa_peek_sim _ _ _ _ (zr_ls _ _ _ H) Z)|].
    split; [exact H|]. split; [apply upto_refl|apply sub_refl].
Qed.

Lemma pop_right_sim z x z' : pop_right z = Ok (x, z') ->
  ev (fun k => forall st sz, zrep st sz z -> uniq (zown z) ->
    exists sz' st', s_pop_right k sz st = Ok ((x, sz'), st') /\ zpost st (zown z) st' sz' z').
Proof.
  intros Z. unfold pop_right in Z. destruct (as_is_empty (z_r_stack z)) eqn:Em.
  - apply bind_Ok in Z. destruct Z as ([u c1] & U & Z). destruct (up_failed u) eqn:F.
    + injection Z as <- <-. apply ev_always. intros k st sz H Un.
      unfold s_pop_right. rewrite (sa_empty_sim _ _ _ (zr_rs _ _ _ H)), Em.
      unfold zown in Un. pose proof (fown_own (z_r_forest z)).
      destruct (r3 up_sim _ _ _ _ _ (proj1 (zr_rf _ _ _ H)) ltac:(names) U) as (sc1 & st1 & E1 & P).
      rewrite (s_bind_Ok _ _ _ _ _ E1), F.
      pose proof (up_tree _ _ _ _ _ _ _ _ P) as X. destruct u; try discriminate.
      destruct X as (-> & -> & ->). do 2 eexists. split; [reflexivity|].
      split; [|split; [apply upto_refl|unfold zown; simpl; names]].
      destruct H. constructor; auto.
    + destruct (down_right_force ForceDiscard c1) as [b2 c2] eqn:D2.
      apply bind_Ok in Z. destruct Z as (c3 & D3 & Z).
      destruct (c_peek c3) as [[| |v]|] eqn:P3; try discriminate.
      apply bind_Ok in Z. destruct Z as ([e a'] & Po & Z). injection Z as <- <-.
      exists (S (ot_size (c_tree c2))). intros k K st sz H Un. unfold zown in Un.
      pose proof (fown_own (z_r_forest z)).
      destruct (up_right_discard _ _ _ _ _ (proj1 (zr_rf _ _ _ H)) (zr_r_nil _ _ _ H) ltac:(names) U F)
        as (sc1 & st1 & sc2 & E1 & U1 & _ & _ & E2 & C2 & S2 & N2).
      rewrite D2 in C2, S2, N2. cbn [snd] in C2, S2, N2. apply crep_nrep in C2. destruct C2 as [C2 L2].
      destruct (r1 down_left_all_sim k _ _ _ _ C2 D3 K) as (sc3 & E3 & C3 & S3 & L3).
      destruct (L3 N2 L2) as [N3 L4].
      assert (Hs : arep st1 (sz_rs sz) (z_r_stack z)).
      { apply (arep_frame' (fown (z_r_forest z)) st); auto; [names|]. apply (zr_rs _ _ _ H). }
      destruct (sa_pop_sim _ _ _ _ _ (as_extend_rev_rep _ _ _ v Hs) Po) as (s' & E4 & H4 & S4).
      unfold s_pop_right. rewrite (sa_empty_sim _ _ _ (zr_rs _ _ _ H)), Em.
      rewrite (s_bind_Ok _ _ _ _ _ E1), F. rewrite (s_bind_Ok _ _ _ _ _ E2).
      rewrite (s_bind_Ok _ _ _ _ _ E3). rewrite (s_bind_Ok _ _ _ _ _ (peek_sim _ _ _ C3)), P3.
      rewrite (s_bind_Ok _ _ _ _ _ E4). do 2 eexists. split; [reflexivity|].
      apply anames_sub in S4. change (anames (as_extend_rev (z_r_stack z) v)) with (anames (z_r_stack z)) in S4.
      split; [|split].
      * constructor; simpl; auto.
        -- apply (crep_frame same_kind (fown (z_r_forest z)) st); auto; [names|]. apply (zr_lf _ _ _ H).
        -- apply crep_nrep. auto.
        -- apply (zr_l_nil _ _ _ H).
        -- apply (arep_frame' (fown (z_r_forest z)) st); auto; [names|]. apply (zr_ls _ _ _ H).
      * apply (upto_sub (fown (z_r_forest z))); [unfold zown; names|exact U1].
      * unfold zown. simpl. names.
  - apply bind_Ok in Z. destruct Z as ([e a'] & Po & Z). injection Z as <- <-.
    apply ev_always. intros k st sz H Un.
    unfold s_pop_right. rewrite (sa_empty_sim _ _ _ (zr_rs _ _ _ H)), Em.
    destruct (sa_pop_sim _ _ _ _ _ (zr_rs _ _ _ H) Po) as (s' & E4 & H4 & S4). apply anames_sub in S4.
    rewrite (s_bind_Ok _ _ _ _ _ E4). do 2 eexists. split; [reflexivity|].
    split; [|split; [apply upto_refl|unfold zown; simpl; names]]. destruct H. constructor; auto.
Qed.

Lemma peek_right_sim z x : peek_right z = Ok x ->
  ev (fun k => forall st sz, zrep st sz z -> uniq (zown z) ->
    exists st', s_peek_right k sz st = Ok (x, st') /\ zpost st (zown z) st' sz z).
Proof.
  intros Z. unfold peek_right in Z. destruct (as_is_empty (z_r_stack z)) eqn:Em.
  - apply bind_Ok in Z. destruct Z as ([u c1] & U & Z).
    assert (Up : forall st sz, zrep st sz z -> uniq (zown z) -> exists sc1 st1,
      sc_up (sz_rf sz) st = Ok ((u, sc1), st1) /\ crep st1 sc1 c1 /\ zpost st (zown z) st1 sz z).
    { intros st sz H Un. pose proof Un as Un'. unfold zown in Un. pose proof (fown_own (z_r_forest z)).
      pose proof (iown_own (z_r_forest z)).
      destruct (r3 up_sim _ _ _ _ _ (proj1 (zr_rf _ _ _ H)) ltac:(names) U) as (sc1 & st1 & E1 & P).
      pose proof (up_upto _ _ _ _ _ _ _ _ P) as U1.
      exists sc1, st1. split; [exact E1|]. split; [|split; [|split]].
      - split; [apply (up_irep _ _ _ _ _ _ _ _ P)|apply (up_rep _ _ _ _ _ _ _ _ P)].
        + apply (proj2 (zr_rf _ _ _ H)).
        + names.
      - constructor.
        + apply (crep_frame same_kind (fown (z_r_forest z)) st); auto; [names|]. apply (zr_lf _ _ _ H).
        + split; [apply (up_keeps _ _ _ _ _ _ _ _ P); names|].
          apply (orep_frame (fown (z_r_forest z)) st); auto; [unfold own in Un; names|].
          apply (proj2 (zr_rf _ _ _ H)).
        + apply (zr_l_nil _ _ _ H).
        + apply (zr_r_nil _ _ _ H).
        + apply (arep_frame' (fown (z_r_forest z)) st); auto; [names|]. apply (zr_ls _ _ _ H).
        + apply (arep_frame' (fown (z_r_forest z)) st); auto; [names|]. apply (zr_rs _ _ _ H).
      - apply (upto_sub (fown (z_r_forest z))); [unfold zown; names|exact U1].
      - apply sub_refl. }
    destruct (up_failed u) eqn:F.
    + injection Z as <-. apply ev_always. intros k st sz H Un.
      destruct (Up _ _ H Un) as (sc1 & st1 & E1 & _ & P). exists st1. split; [|exact P].
      unfold s_peek_right. rewrite (sa_empty_sim _ _ _ (zr_rs _ _ _ H)), Em.
      rewrite (s_bind_Ok _ _ _ _ _ E1), F. reflexivity.
    + destruct (down_right c1) as [b2 c2] eqn:D2.
      apply bind_Ok in Z. destruct Z as (c3 & D3 & Z).
      destruct (c_peek c3) as [[| |v]|] eqn:P3; try discriminate. injection Z as <-.
      exists (S (ot_size (c_tree c2))). intros k K st sz H Un.
      destruct (Up _ _ H Un) as (sc1 & st1 & E1 & C1 & P). exists st1. split; [|exact P].
      apply crep_nrep in C1. destruct C1 as [C1 _].
      destruct (r1 down_right_sim ForceNo _ _ _ _ _ C1 ltac:(discriminate) D2) as (sc2 & E2 & C2 & _).
      destruct (r1 down_left_all_sim k _ _ _ _ C2 D3 K) as (sc3 & E3 & C3 & _).
      unfold s_peek_right. rewrite (sa_empty_sim _ _ _ (zr_rs _ _ _ H)), Em.
      rewrite (s_bind_Ok _ _ _ _ _ E1), F. rewrite (s_bind_Ok _ _ _ _ _ E2).
      rewrite (s_bind_Ok _ _ _ _ _ E3). rewrite (s_bind_Ok _ _ _ _ _ (peek_sim _ _ _ C3)), P3.
      reflexivity.
  - apply ev_always. intros k st sz H Un. exists st.
    unfold s_peek_right. rewrite (sa_empty_sim _ _ _ (zr_rs _ _ _ H)), Em.
    split; [apply (sa_peek_sim _ _ _ _ (zr_rs _ _ _ H) Z)|].
    split; [exact H|]. split; [apply upto_refl|apply sub_refl].
Qed.

Lemma archive_sim st s a nm (m : level) : arep st s a -> apart (anames a) (oroot nm) ->
  exists s' st', sa_archive s nm m st = Ok ((fst (as_archive a nm m), s'), st') /\
    arep st' s' (snd (as_archive a nm m)) /\ upto (oroot nm) st st' /\
    sub (anames (snd (as_archive a nm m))) (oroot nm ++ oroot (tree_name nm) ++ anames a).
Proof.
  intros H D. pose proof (anames_snames a). destruct (sa_archive_sim _ _ _ nm m H) as (s' & st' & E1 & R & U & S).
  { unfold snames in *. names. }
  exists s', st'. split; [exact E1|]. split; [exact R|]. split; [exact U|].
  fold (snames (snd (as_archive a nm m))) in S. fold (snames a) in S.
  pose proof (cnt_map_sub _ _ S) as S'. rewrite map_app in S'.
  replace (map tnm (oroot nm)) with (oroot (tree_name nm)) in S' by now destruct nm.
  unfold anames in *. names.
Qed.

Theorem zstep_sim z o x z' : zstep z o = Ok (x, z') ->
  ev (fun k => forall st sz, zrep st sz z -> uniq (zown z ++ fresh o) ->
    exists sz' st', s_zstep k sz o st = Ok ((x, sz'), st') /\ zpost st (zown z ++ fresh o) st' sz' z').
Proof.
  destruct o as [e|e| | | | |lev nm|lev nm]; cbn [zstep s_zstep fresh]; intros Z.
  - injection Z as <- <-. apply ev_always. intros k st sz H Un. do 2 eexists.
    split; [unfold s_push_left, s_ret, sa_active_len; rewrite (proj1 (as_push_rep _ _ _ e (zr_ls _ _ _ H))); reflexivity|].
    split; [|split; [apply upto_refl|rewrite app_nil_r; apply sub_refl]].
    destruct H. constructor; simpl; auto using as_push_rep.
  - injection Z as <- <-. apply ev_always. intros k st sz H Un. do 2 eexists.
    split; [unfold s_push_right, s_ret, sa_active_len; rewrite (proj1 (as_push_rep _ _ _ e (zr_rs _ _ _ H))); reflexivity|].
    split; [|split; [apply upto_refl|rewrite app_nil_r; apply sub_refl]].
    destruct H. constructor; simpl; auto using as_push_rep.
  - apply bind_Ok in Z. destruct Z as ([y z1] & Z1 & Z). injection Z as <- <-. rewrite app_nil_r.
    apply (ev_imp _ _ (pop_left_sim _ _ _ Z1)). intros k K st sz H Un.
    destruct (K _ _ H Un) as (sz' & st' & E1 & P). exists sz', st'. split; [|exact P].
    now rewrite (s_bind_Ok _ _ _ _ _ E1).
  - apply bind_Ok in Z. destruct Z as ([y z1] & Z1 & Z). injection Z as <- <-. rewrite app_nil_r.
    apply (ev_imp _ _ (pop_right_sim _ _ _ Z1)). intros k K st sz H Un.
    destruct (K _ _ H Un) as (sz' & st' & E1 & P). exists sz', st'. split; [|exact P].
    now rewrite (s_bind_Ok _ _ _ _ _ E1).
  - apply bind_Ok in Z. destruct Z as (y & Z1 & Z). injection Z as <- <-. rewrite app_nil_r.
    apply (ev_imp _ _ (peek_left_sim _ _ Z1)). intros k K st sz H Un.
    destruct (K _ _ H Un) as (st' & E1 & P). exists sz, st'. split; [|exact P].
    now rewrite (s_bind_Ok _ _ _ _ _ E1).
  - apply bind_Ok in Z. destruct Z as (y & Z1 & Z). injection Z as <- <-. rewrite app_nil_r.
    apply (ev_imp _ _ (peek_right_sim _ _ Z1)). intros k K st sz H Un.
    destruct (K _ _ H Un) as (st' & E1 & P). exists sz, st'. split; [|exact P].
    now rewrite (s_bind_Ok _ _ _ _ _ E1).
  - injection Z as <- <-. apply ev_always. intros k st sz H Un. unfold zown in Un.
    destruct (archive_sim _ _ _ nm lev (zr_ls _ _ _ H) ltac:(names)) as (s' & st' & E1 & R & U & S).
    do 2 eexists. split.
    + unfold s_archive_left. unfold s_bind at 1. rewrite (s_bind_Ok _ _ _ _ _ E1). reflexivity.
    + split; [|split].
      * constructor; simpl.
        -- apply (crep_frame same_kind (oroot nm) st); auto; [names|]. apply (zr_lf _ _ _ H).
        -- apply (crep_frame same_kind (oroot nm) st); auto; [names|]. apply (zr_rf _ _ _ H).
        -- apply (zr_l_nil _ _ _ H).
        -- apply (zr_r_nil _ _ _ H).
        -- exact R.
        -- apply (arep_frame' (oroot nm) st); auto; [names|]. apply (zr_rs _ _ _ H).
      * apply (upto_sub (oroot nm)); [names|exact U].
      * unfold zown. cbn [archive_left z_l_forest z_r_forest z_l_stack z_r_stack]. names.
  - injection Z as <- <-. apply ev_always. intros k st sz H Un. unfold zown in Un.
    destruct (archive_sim _ _ _ nm lev (zr_rs _ _ _ H) ltac:(names)) as (s' & st' & E1 & R & U & S).
    do 2 eexists. split.
    + unfold s_archive_right. unfold s_bind at 1. rewrite (s_bind_Ok _ _ _ _ _ E1). reflexivity.
    + split; [|split].
      * constructor; simpl.
        -- apply (crep_frame same_kind (oroot nm) st); auto; [names|]. apply (zr_lf _ _ _ H).
        -- apply (crep_frame same_kind (oroot nm) st); auto; [names|]. apply (zr_rf _ _ _ H).
        -- apply (zr_l_nil _ _ _ H).
        -- apply (zr_r_nil _ _ _ H).
        -- apply (arep_frame' (oroot nm) st); auto; [names|]. apply (zr_ls _ _ _ H).
        -- exact R.
      * apply (upto_sub (oroot nm)); [names|exact U].
      * unfold zown. cbn [archive_right z_l_forest z_r_forest z_l_stack z_r_stack]. names.
Qed.

Theorem zrun_sim ops : forall z xs z', zrun z ops = Ok (xs, z') ->
  ev (fun k => forall st sz, zrep st sz z -> uniq (zown z ++ flat_map fresh ops) ->
    exists sz' st', s_zrun k sz ops st = Ok ((xs, sz'), st') /\
      zpost st (zown z ++ flat_map fresh ops) st' sz' z').
Proof.
  induction ops as [|o ops IH]; intros z xs z' Z; cbn [zrun s_zrun flat_map] in *.
  - injection Z as <- <-. apply ev_always. intros k st sz H Un. exists sz, st. split; [reflexivity|].
    split; [exact H|]. split; [apply upto_refl|names].
  - apply bind_Ok in Z. destruct Z as ([x z1] & Z1 & Z). apply bind_Ok in Z. destruct Z as ([ys z2] & Z2 & Z).
    injection Z as <- <-.
    apply (ev_imp _ _ (ev_and _ _ (zstep_sim _ _ _ _ Z1) (IH _ _ _ Z2))). intros k [K1 K2] st sz H Un.
    destruct (K1 _ _ H ltac:(names)) as (sz1 & st1 & E1 & R1 & U1 & S1).
    destruct (K2 _ _ R1 ltac:(names)) as (sz2 & st2 & E2 & R2 & U2 & S2).
    exists sz2, st2. split; [rewrite (s_bind_Ok _ _ _ _ _ E1), (s_bind_Ok _ _ _ _ _ E2); reflexivity|].
    split; [exact R2|]. split; [|names].
    apply (upto_trans _ _ st1); [eapply upto_sub; [|exact U1]|eapply upto_sub; [|exact U2]]; names.
Qed.

(** ** The tree *)
Definition rtrep st (s : sraz_tree E M) (t : raz_tree E M) : Prop :=
  srt_meta s = rt_meta t /\ orep st (srt_tree s) (rt_tree t).
Definition rtnames (t : raz_tree E M) : list name := otnames (rt_tree t).

Lemma rtrep_frame L st st' s t : upto L st st' -> apart (rtnames t) L -> rtrep st s t -> rtrep st' s t.
Proof. intros U D [H1 H2]. split; [exact H1|]. now apply (orep_frame L st). Qed.

Lemma mk_raz_tree_sim st so o t : orep st so o -> mk_raz_tree o = Ok t ->
  exists s, s_mk_raz_tree so st = Ok (s, st) /\ rtrep st s t /\ rt_tree t = o.
Proof.
  intros H Z. unfold mk_raz_tree in Z. apply bind_Ok in Z. destruct Z as (m & Z1 & Z). injection Z as <-.
  exists (SRazTree m so). split; [|split; [split; auto|reflexivity]].
  unfold s_mk_raz_tree. unfold treetop_meta in Z1. unfold s_treetop_meta.
  destruct so as [s|], o as [t|]; try contradiction.
  - pose proof H as R. apply rep_eq in R. destruct R as (_ & _ & sl & sr & Lk & _).
    unfold s_bind at 1. rewrite (s_bind_Ok _ _ _ _ _ (peek_Ok _ _ _ _ _ Lk)).
    destruct (t_peek t); try discriminate; injection Z1 as <-; reflexivity.
  - injection Z1 as <-. reflexivity.
Qed.

Lemma from_nrep st s t : rep st s t -> nrep st (sc_from s) (c_from t).
Proof. intros H. constructor; simpl; auto; constructor. Qed.
Lemma from_crep st s t : rep st s t -> crep st (sc_from s) (c_from t).
Proof. intros H. apply crep_nrep. split; [now apply from_nrep|]. constructor. Qed.
Lemma own_from (t : tree rdata) : own (c_from t) = tnames t ++ [].
Proof. reflexivity. Qed.

Lemma split_sim st sc c lc o rc : nrep st sc c -> c_split c = (lc, o, rc) ->
  exists slc so src, sc_split sc st = Ok ((slc, so, src), st) /\ orep st so o /\
    crep st slc lc /\ crep st src rc /\ r_forest lc = [] /\ l_forest rc = [] /\
    sub (own lc ++ own rc) (own c).
Proof.
  intros [H1 H2 H3 H4] Sp. unfold c_split in Sp. injection Sp as <- <- <-. unfold sc_split.
  unfold left_tree, right_tree, sc_left_tree, sc_right_tree.
  destruct sc as [b slf so srf], c as [b' lf o rf]. simpl in *.
  destruct so as [s|], o as [t|]; try contradiction.
  - pose proof H4 as R. apply rep_eq in R. destruct R as (_ & _ & sl & sr & Lk & Rl & Rr).
    rewrite (s_bind_Ok _ _ _ _ _ (left_Ok _ _ _ _ _ Lk)).
    rewrite (s_bind_Ok _ _ _ _ _ (right_Ok _ _ _ _ _ Lk)).
    do 3 eexists. split; [reflexivity|]. split; [exact H4|].
    split; [|split; [|split; [reflexivity|split; [reflexivity|]]]].
    + apply crep_nrep. split; constructor; simpl; auto. constructor.
    + apply crep_nrep. split; constructor; simpl; auto. constructor.
    + unfold own, fown. simpl. rewrite tnames_eq. names.
  - do 3 eexists. split; [reflexivity|]. split; [exact I|].
    split; [|split; [|split; [reflexivity|split; [reflexivity|]]]].
    + apply crep_nrep. split; constructor; simpl; auto. constructor.
    + apply crep_nrep. split; constructor; simpl; auto. constructor.
    + unfold own, fown. simpl. names.
Qed.

Lemma raz_new_rep st : zrep st s_raz_new raz_new.
Proof.
  constructor; simpl; auto; try (split; simpl; auto; fail).
  - apply crep_nrep. split; constructor; simpl; auto; constructor.
  - apply crep_nrep. split; constructor; simpl; auto; constructor.
Qed.
Lemma new_rep st : arep st (@sa_new E level) as_new.
Proof. split; simpl; auto. Qed.

(** *** focus *)
Theorem focus_sim t i oz : rt_focus t i = Ok oz ->
  ev (fun k => forall st s, rtrep st s t ->
    exists osz, s_focus k s i st = Ok (osz, st) /\
      match osz, oz with
      | Some sz, Some z => zrep st sz z /\ sub (zown z) (rtnames t)
      | None, None => True
      | _, _ => False
      end).
Proof.
  intros Z. unfold rt_focus in Z. destruct (rt_tree t) as [tr|] eqn:Tr.
  2:{ injection Z as <-. apply ev_always. intros k st s [_ H]. rewrite Tr in H. unfold s_focus.
      destruct (srt_tree s); [contradiction|]. eexists. split; [reflexivity|].
      split; [apply raz_new_rep|]. unfold zown. simpl. names. }
  apply bind_Ok in Z. destruct Z as (found & Lp & Z).
  pose (Rel := fun (st0 : store) (st : store) (sc : scursor rdata * Index) (c : cursor rdata * Index) =>
    st = st0 /\ snd sc = snd c /\ nrep st0 (fst sc) (fst c) /\ sub (own (fst c)) (own (c_from tr))).
  pose (Fin := fun (st0 : store) (st : store) (sf : option (scursor rdata * Index))
                   (f : option (cursor rdata * Index)) => st = st0 /\
    match sf, f with
    | Some sc, Some c => Rel st0 st sc c
    | None, None => True
    | _, _ => False
    end).
  eapply (s_loop_ev Rel Fin focus_step s_focus_step) in Lp.
  2:{ clear found Lp Z. intros [c j] x St. unfold focus_step in St.
      apply bind_Ok in St. destruct St as (d & Pk & St).
      assert (Pk' : forall (st0 st : store) sc, Rel st0 st sc (c, j) -> sc_peek (fst sc) st = Ok (Some d, st)).
      { intros st0 st sc (-> & _ & N & _). rewrite (peek_sim _ _ _ N). simpl.
        destruct (c_peek c); [injection Pk as ->; reflexivity|discriminate]. }
      destruct d as [|l r|v].
      - injection St as <-. apply ev_always. intros k st0 st [sc j'] R. exists (inr (Some (sc, j'))), st.
        unfold s_focus_step. rewrite (s_bind_Ok _ _ _ _ _ (Pk' _ _ _ R)). split; [reflexivity|].
        split; [apply R|exact R].
      - apply bind_Ok in St. destruct St as (nav & Nv & St). destruct nav as [j2|j2| |].
        + destruct (down_left c) as [b c2] eqn:D. apply bind_Ok in St. destruct St as ([] & As & St).
          injection St as <-. apply ev_always. intros k st0 st [sc j'] R. pose proof (Pk' _ _ _ R) as P1.
          destruct R as (-> & R2 & R3 & R4). cbn [fst snd] in *. subst j'.
          destruct (r1 down_left_sim ForceNo _ _ _ _ _ R3 ltac:(discriminate) D) as (sc2 & E2 & C2 & S2 & _).
          exists (inl (sc2, j2)), st0. unfold s_focus_step. rewrite (s_bind_Ok _ _ _ _ _ P1).
          unfold s_bind at 1, s_lift at 1. cbn [unwrap]. unfold s_bind at 1, s_lift at 1. rewrite Nv.
          rewrite (s_bind_Ok _ _ _ _ _ E2). unfold s_bind, s_lift. rewrite As. split; [reflexivity|].
          split; [reflexivity|]. split; [reflexivity|]. split; [exact C2|].
          eapply sub_trans; eassumption.
        + destruct (down_right c) as [b c2] eqn:D. apply bind_Ok in St. destruct St as ([] & As & St).
          injection St as <-. apply ev_always. intros k st0 st [sc j'] R. pose proof (Pk' _ _ _ R) as P1.
          destruct R as (-> & R2 & R3 & R4). cbn [fst snd] in *. subst j'.
          destruct (r1 down_right_sim ForceNo _ _ _ _ _ R3 ltac:(discriminate) D) as (sc2 & E2 & C2 & S2 & _).
          exists (inl (sc2, j2)), st0. unfold s_focus_step. rewrite (s_bind_Ok _ _ _ _ _ P1).
          unfold s_bind at 1, s_lift at 1. cbn [unwrap]. unfold s_bind at 1, s_lift at 1. rewrite Nv.
          rewrite (s_bind_Ok _ _ _ _ _ E2). unfold s_bind, s_lift. rewrite As. split; [reflexivity|].
          split; [reflexivity|]. split; [reflexivity|]. split; [exact C2|].
          eapply sub_trans; eassumption.
        + destruct (down_left c) as [b c2] eqn:D. apply bind_Ok in St. destruct St as ([] & As & St).
          apply bind_Ok in St. destruct St as (c3 & D3 & St).
          injection St as <-. exists (S (ot_size (c_tree c2))). intros k K st0 st [sc j'] R.
          pose proof (Pk' _ _ _ R) as P1.
          destruct R as (-> & R2 & R3 & R4). cbn [fst snd] in *. subst j'.
          destruct (r1 down_left_sim ForceNo _ _ _ _ _ R3 ltac:(discriminate) D) as (sc2 & E2 & C2 & S2 & _).
          destruct (r1 down_right_all_sim k _ _ _ _ C2 D3 K) as (sc3 & E3 & C3 & S3 & _).
          exists (inl (sc3, idx_last)), st0. unfold s_focus_step. rewrite (s_bind_Ok _ _ _ _ _ P1).
          unfold s_bind at 1, s_lift at 1. cbn [unwrap]. unfold s_bind at 1, s_lift at 1. rewrite Nv.
          rewrite (s_bind_Ok _ _ _ _ _ E2). unfold s_bind at 1, s_lift at 1. rewrite As.
          rewrite (s_bind_Ok _ _ _ _ _ E3). split; [reflexivity|].
          split; [reflexivity|]. split; [reflexivity|]. split; [exact C3|].
          eapply sub_trans; [exact S3|]. eapply sub_trans; eassumption.
        + injection St as <-. apply ev_always. intros k st0 st [sc j'] R. pose proof (Pk' _ _ _ R) as P1.
          destruct R as (-> & R2 & R3 & R4). cbn [fst snd] in *. subst j'.
          exists (inr None), st0. unfold s_focus_step. rewrite (s_bind_Ok _ _ _ _ _ P1).
          unfold s_bind at 1, s_lift at 1. cbn [unwrap]. unfold s_bind at 1, s_lift at 1. rewrite Nv.
          split; [reflexivity|]. split; [reflexivity|exact I].
      - injection St as <-. apply ev_always. intros k st0 st [sc j'] R. exists (inr (Some (sc, j'))), st.
        unfold s_focus_step. rewrite (s_bind_Ok _ _ _ _ _ (Pk' _ _ _ R)). split; [reflexivity|].
        split; [apply R|exact R]. }
  apply (ev_imp _ _ Lp). clear Lp. intros k K st s [_ H]. rewrite Tr in H. unfold s_focus.
  destruct (srt_tree s) as [str|]; [|contradiction].
  destruct (K st st (sc_from str, i)) as (sf & st' & E1 & -> & P).
  { split; [reflexivity|]. split; [reflexivity|]. split; [now apply from_nrep|apply sub_refl]. }
  rewrite (s_bind_Ok _ _ _ _ _ E1). destruct sf as [[sc j]|], found as [[c j']|]; try contradiction.
  2:{ injection Z as <-. eexists. split; [reflexivity|exact I]. }
  destruct P as (_ & P1 & P2 & P3). cbn [fst snd] in *. subst j'.
  destruct (c_split c) as [[lc o] rc] eqn:Sp.
  destruct (split_sim _ _ _ _ _ _ P2 Sp) as (slc & so & src & E2 & R0 & R1 & R2 & N1 & N2 & S2).
  rewrite (s_bind_Ok _ _ _ _ _ E2).
  destruct o as [tt|], so as [stt|]; try contradiction; try discriminate.
  pose proof R0 as R. apply rep_eq in R. destruct R as (_ & _ & sl & sr & Lk & _).
  rewrite (s_bind_Ok _ _ _ _ _ (peek_Ok _ _ _ _ _ Lk)).
  destruct (t_peek tt) as [| |v]; try discriminate.
  apply bind_Ok in Z. destruct Z as ([a b] & SV & Z). injection Z as <-.
  unfold s_bind at 1, s_lift at 1. rewrite SV. eexists. split; [reflexivity|]. split.
  - constructor; simpl; auto; [apply as_extend_rep|apply as_extend_rev_rep]; apply new_rep.
  - unfold zown, rtnames. rewrite Tr. cbn [z_l_forest z_r_forest z_l_stack z_r_stack otnames].
    change (anames (as_extend as_new a)) with (@nil name).
    change (anames (as_extend_rev as_new b)) with (@nil name).
    rewrite own_from in P3. names.
Qed.

Theorem focus_left_sim t z : rt_focus_left t = Ok z ->
  ev (fun k => forall st s, rtrep st s t ->
    exists sz, s_focus_left k s st = Ok (sz, st) /\ zrep st sz z /\ sub (zown z) (rtnames t)).
Proof.
  intros Z. unfold rt_focus_left in Z. destruct (rt_tree t) as [tr|] eqn:Tr.
  2:{ injection Z as <-. apply ev_always. intros k st s [_ H]. rewrite Tr in H. unfold s_focus_left.
      destruct (srt_tree s); [contradiction|]. eexists. split; [reflexivity|].
      split; [apply raz_new_rep|]. unfold zown. simpl. names. }
  apply bind_Ok in Z. destruct Z as (c & D & Z).
  exists (S (ot_size (c_tree (c_from tr)))). intros k K st s [_ H]. rewrite Tr in H. unfold s_focus_left.
  destruct (srt_tree s) as [str|]; [|contradiction].
  destruct (r1 down_left_all_sim k _ _ _ _ (from_nrep _ _ _ H) D K) as (sc & E1 & P2 & P3 & _).
  rewrite (s_bind_Ok _ _ _ _ _ E1).
  destruct (c_split c) as [[lc o] rc] eqn:Sp.
  destruct (split_sim _ _ _ _ _ _ P2 Sp) as (slc & so & src & E2 & R0 & R1 & R2 & N1 & N2 & S2).
  rewrite (s_bind_Ok _ _ _ _ _ E2).
  destruct o as [tt|], so as [stt|]; try contradiction; try discriminate.
  pose proof R0 as R. apply rep_eq in R. destruct R as (_ & _ & sl & sr & Lk & _).
  rewrite (s_bind_Ok _ _ _ _ _ (peek_Ok _ _ _ _ _ Lk)).
  destruct (t_peek tt) as [| |v]; try discriminate. injection Z as <-.
  eexists. split; [reflexivity|]. split.
  - constructor; simpl; auto; [|apply as_extend_rev_rep]; apply new_rep.
  - unfold zown, rtnames. rewrite Tr. cbn [z_l_forest z_r_forest z_l_stack z_r_stack otnames].
    change (anames (as_extend_rev as_new v)) with (@nil name).
    change (anames as_new) with (@nil name).
    rewrite own_from in P3. names.
Qed.

(** *** unfocus *)
Lemma unfocus_side_sim st s a nm lev v a' : arep st s a -> unfocus_side a = Ok (nm, lev, v, a') ->
  exists s', s_unfocus_side s st = Ok ((nm, lev, v, s'), st) /\ arep st s' a' /\
    sub (oroot nm ++ anames a') (anames a).
Proof.
  intros H Z. unfold unfocus_side in Z. apply bind_Ok in Z. destruct Z as ([o a1] & Z1 & Z).
  destruct (sa_next_archive_sim _ _ _ _ _ H Z1) as (s' & E1 & R & N). apply anames_next in N.
  destruct N as [_ N]. exists s'. unfold s_unfocus_side. rewrite (s_bind_Ok _ _ _ _ _ E1).
  rewrite (sa_name_sim _ _ _ H). destruct o as [[vec l]|]; injection Z as <- <- <- <-.
  - split; [reflexivity|]. split; [exact R|names].
  - split; [reflexivity|]. split; [exact R|names].
Qed.

Lemma leaf_new_sim st v t : unwrap "unfocus: leaf" (tree_new 0%N None (Leaf v) None None) = Ok t ->
  exists s, (s_tree_new 0%N None (Leaf v) None None : sm _ _ _) st = Ok (Some s, st) /\ rep st s t /\ tnames t = [].
Proof.
  intros Z. unfold tree_new in Z. simpl in Z. injection Z as <-.
  eexists. split; [reflexivity|]. split; [|reflexivity].
  apply rep_eq. simpl. split; [reflexivity|]. split; [reflexivity|]. do 2 eexists. split; [reflexivity|].
  split; exact I.
Qed.

Lemma unfocus_left_loop_sim s lev nm c c' : unfocus_left_loop s lev nm c = Ok c' ->
  ev (fun k => forall st ss sc, uniq (own c ++ oroot nm ++ anames s) -> arep st ss s -> crep st sc c ->
    exists sc' st', s_unfocus_left_loop k ss lev nm sc st = Ok (sc', st') /\ crep st' sc' c' /\
      upto (own c ++ oroot nm ++ anames s) st st' /\ sub (own c') (own c ++ oroot nm ++ anames s)).
Proof.
  intros Z. set (L := own c ++ oroot nm ++ anames s) in *. unfold unfocus_left_loop in Z.
  pose (Rel := fun (st0 st : store)
      '((ss, lev', nm', nn', sc) : sastack E level * option level * option name * option name * scursor rdata)
      '((s1, lev1, nm1, nn1, c1) : astack E level * option level * option name * option name * cursor rdata) =>
    (lev' = lev1 /\ nm' = nm1 /\ nn' = nn1 /\ nn1 = tree_name (as_name s1)) /\ uniq L /\
    arep st ss s1 /\ crep st sc c1 /\ upto L st0 st /\ sub (own c1 ++ oroot nm1 ++ anames s1) L).
  pose (Fin := fun (st0 st : store) sc1 c1 => crep st sc1 c1 /\ upto L st0 st /\ sub (own c1) L).
  match type of Z with loop _ ?f _ = _ =>
    eapply (s_loop_ev Rel Fin f (fun k '(s, lev, nm, next_nm, c) =>
       act ' (o, s') <- sa_next_archive s;
       match o with
       | None => s_ret (inr c)
       | Some (l_vec, next_lev) =>
           act o <- s_tree_new 0%N None (Leaf l_vec) None None;
           act lt <- s_lift (unwrap "unfocus: leaf" o);
           act lv <- s_lift (unwrap "unfocus: l_lev" lev);
           act c' <- sc_join k (sc_from lt) lv nm Dummy c;
           s_ret (inl (s', next_lev, next_nm, tree_name (sa_name s'), c'))
       end)) in Z end.
  - apply (ev_imp _ _ Z). intros k K st ss sc Un Hs Hc.
    destruct (K st st (ss, lev, nm, tree_name (sa_name ss), sc)) as (sc' & st' & E1 & P).
    { split; [rewrite (sa_name_sim _ _ _ Hs); auto|]. split; [exact Un|]. split; [exact Hs|]. split; [exact Hc|].
      split; [apply upto_refl|apply sub_refl]. }
    exists sc', st'. split; [exact E1|exact P].
  - clear Z. intros [[[[s1 lev1] nm1] nn1] c1] x St.
    apply bind_Ok in St. destruct St as ([o s2] & Nx & St). destruct o as [[v nl]|].
    + apply bind_Ok in St. destruct St as (lt & Lf & St). apply bind_Ok in St. destruct St as (lv & Lv & St).
      apply bind_Ok in St. destruct St as (c2 & J & St). injection St as <-.
      apply (ev_imp _ _ (r3 (join_sim (T := level * list E)) _ _ _ _ _ _ J)). intros k K st0 st [[[[ss lev'] nm'] nn'] sc] R.
      destruct R as ((-> & -> & -> & Hnn) & Un & R1 & R2 & R3 & R4).
      destruct (sa_next_archive_sim _ _ _ _ _ R1 Nx) as (ss2 & E1 & A2 & N). apply anames_next in N.
      destruct N as [N1 N2].
      destruct (leaf_new_sim st _ _ Lf) as (sl & E2 & Rl & Nl).
      assert (Ol : own (c_from lt) = []) by (rewrite own_from, Nl; reflexivity). rewrite Ol in K.
      destruct (K st (sc_from sl) sc (from_crep _ _ _ Rl) R2 ltac:(names)) as (sc2 & st2 & E3 & C2 & U2 & S2).
      eexists (inl (ss2, nl, nn1, tree_name (sa_name ss2), sc2)), st2. split.
      * rewrite (s_bind_Ok _ _ _ _ _ E1), (s_bind_Ok _ _ _ _ _ E2).
        unfold s_bind at 1, s_lift at 1. cbn [unwrap]. unfold s_bind at 1, s_lift at 1. rewrite Lv.
        rewrite (s_bind_Ok _ _ _ _ _ E3). reflexivity.
      * assert (A3 : arep st2 ss2 s2) by (eapply arep_frame'; [exact U2|names|exact A2]).
        split; [rewrite (sa_name_sim _ _ _ A2); auto|]. split; [exact Un|]. split; [exact A3|]. split; [exact C2|].
        split; [apply (upto_trans _ _ st); [exact R3|]; eapply upto_sub; [|exact U2]; names|].
        subst nn1. names.
    + injection St as <-. apply ev_always. intros k st0 st [[[[ss lev'] nm'] nn'] sc] R.
      destruct R as ((-> & -> & -> & Hnn) & Un & R1 & R2 & R3 & R4).
      destruct (sa_next_archive_sim _ _ _ _ _ R1 Nx) as (ss2 & E1 & A2 & _).
      exists (inr sc), st. rewrite (s_bind_Ok _ _ _ _ _ E1). split; [reflexivity|].
      split; [exact R2|]. split; [exact R3|names].
Qed.

Lemma unfocus_right_loop_sim s lev nm c c' : unfocus_right_loop s lev nm c = Ok c' ->
  ev (fun k => forall st ss sc, uniq (own c ++ oroot nm ++ anames s) -> arep st ss s -> crep st sc c ->
    exists sc' st', s_unfocus_right_loop k ss lev nm sc st = Ok (sc', st') /\ crep st' sc' c' /\
      upto (own c ++ oroot nm ++ anames s) st st' /\ sub (own c') (own c ++ oroot nm ++ anames s)).
Proof.
  intros Z. set (L := own c ++ oroot nm ++ anames s) in *. unfold unfocus_right_loop in Z.
  pose (Rel := fun (st0 st : store)
      '((ss, lev', nm', nn', sc) : sastack E level * option level * option name * option name * scursor rdata)
      '((s1, lev1, nm1, nn1, c1) : astack E level * option level * option name * option name * cursor rdata) =>
    (lev' = lev1 /\ nm' = nm1 /\ nn' = nn1 /\ nn1 = tree_name (as_name s1)) /\ uniq L /\
    arep st ss s1 /\ crep st sc c1 /\ upto L st0 st /\ sub (own c1 ++ oroot nm1 ++ anames s1) L).
  pose (Fin := fun (st0 st : store) sc1 c1 => crep st sc1 c1 /\ upto L st0 st /\ sub (own c1) L).
  match type of Z with loop _ ?f _ = _ =>
    eapply (s_loop_ev Rel Fin f (fun k '(s, lev, nm, next_nm, c) =>
       act ' (o, s') <- sa_next_archive s;
       match o with
       | None => s_ret (inr c)
       | Some (r_vec, next_lev) =>
           act o <- s_tree_new 0%N None (Leaf (rev r_vec)) None None;
           act rt <- s_lift (unwrap "unfocus: leaf" o);
           act lv <- s_lift (unwrap "unfocus: r_lev" lev);
           act c' <- sc_join k c lv nm Dummy (sc_from rt);
           s_ret (inl (s', next_lev, next_nm, tree_name (sa_name s'), c'))
       end)) in Z end.
  - apply (ev_imp _ _ Z). intros k K st ss sc Un Hs Hc.
    destruct (K st st (ss, lev, nm, tree_name (sa_name ss), sc)) as (sc' & st' & E1 & P).
    { split; [rewrite (sa_name_sim _ _ _ Hs); auto|]. split; [exact Un|]. split; [exact Hs|]. split; [exact Hc|].
      split; [apply upto_refl|apply sub_refl]. }
    exists sc', st'. split; [exact E1|exact P].
  - clear Z. intros [[[[s1 lev1] nm1] nn1] c1] x St.
    apply bind_Ok in St. destruct St as ([o s2] & Nx & St). destruct o as [[v nl]|].
    + apply bind_Ok in St. destruct St as (lt & Lf & St). apply bind_Ok in St. destruct St as (lv & Lv & St).
      apply bind_Ok in St. destruct St as (c2 & J & St). injection St as <-.
      apply (ev_imp _ _ (r3 (join_sim (T := level * list E)) _ _ _ _ _ _ J)). intros k K st0 st [[[[ss lev'] nm'] nn'] sc] R.
      destruct R as ((-> & -> & -> & Hnn) & Un & R1 & R2 & R3 & R4).
      destruct (sa_next_archive_sim _ _ _ _ _ R1 Nx) as (ss2 & E1 & A2 & N). apply anames_next in N.
      destruct N as [N1 N2].
      destruct (leaf_new_sim st _ _ Lf) as (sl & E2 & Rl & Nl).
      assert (Ol : own (c_from lt) = []) by (rewrite own_from, Nl; reflexivity). rewrite Ol in K.
      destruct (K st sc (sc_from sl) R2 (from_crep _ _ _ Rl) ltac:(names)) as (sc2 & st2 & E3 & C2 & U2 & S2).
      eexists (inl (ss2, nl, nn1, tree_name (sa_name ss2), sc2)), st2. split.
      * rewrite (s_bind_Ok _ _ _ _ _ E1), (s_bind_Ok _ _ _ _ _ E2).
        unfold s_bind at 1, s_lift at 1. cbn [unwrap]. unfold s_bind at 1, s_lift at 1. rewrite Lv.
        rewrite (s_bind_Ok _ _ _ _ _ E3). reflexivity.
      * assert (A3 : arep st2 ss2 s2) by (eapply arep_frame'; [exact U2|names|exact A2]).
        split; [rewrite (sa_name_sim _ _ _ A2); auto|]. split; [exact Un|]. split; [exact A3|]. split; [exact C2|].
        split; [apply (upto_trans _ _ st); [exact R3|]; eapply upto_sub; [|exact U2]; names|].
        subst nn1. names.
    + injection St as <-. apply ev_always. intros k st0 st [[[[ss lev'] nm'] nn'] sc] R.
      destruct R as ((-> & -> & -> & Hnn) & Un & R1 & R2 & R3 & R4).
      destruct (sa_next_archive_sim _ _ _ _ _ R1 Nx) as (ss2 & E1 & A2 & _).
      exists (inr sc), st. rewrite (s_bind_Ok _ _ _ _ _ E1). split; [reflexivity|].
      split; [exact R2|]. split; [exact R3|names].
Qed.

(** The rest of [unfocus] in pieces; [unfocus_eq] and [s_unfocus_eq] say that this is
    only a way to read it. *)
Definition p_vec (lnm : option name) (llev : option level) (lvec : option (list E))
    (ls : astack E level) (rnm : option name) (rlev : option level) (rvec : option (list E))
    (rs : astack E level) :=
  match as_is_empty ls, lvec, rvec, as_is_empty rs with
  | _, Some v, None, _ => Ok (Some v, lnm, llev, ls, rnm, rlev, rs)
  | _, None, Some v, _ => Ok (Some (rev v), lnm, llev, ls, rnm, rlev, rs)
  | _, Some lv, Some rv, _ => Ok (Some (lv ++ rev rv), lnm, llev, ls, rnm, rlev, rs)
  | false, None, None, _ =>
      let lnm := tree_name (as_name ls) in
      do ' (o, ls) <- as_next_archive ls;
      do ' (v, lev) <- unwrap "unfocus: next_archive" o;
      Ok (Some v, lnm, lev, ls, rnm, rlev, rs)
  | true, None, None, false =>
      let rnm := tree_name (as_name rs) in
      do ' (o, rs) <- as_next_archive rs;
      do ' (v, lev) <- unwrap "unfocus: next_archive" o;
      Ok (Some (rev v), lnm, llev, ls, rnm, lev, rs)
  | true, None, None, true => Ok (None, lnm, llev, ls, rnm, rlev, rs)
  end.
Definition p_mid (z : raz E M) (vec : option (list E)) lnm llev ls rnm rlev rs
    : res (option (tree rdata) * cursor rdata * cursor rdata) :=
  match vec with
  | Some v =>
      do t0 <- unwrap "unfocus: leaf" (tree_new 0%N None (Leaf v) None None);
      do c <- unfocus_left_loop ls llev lnm (c_from t0);
      do c <- unfocus_right_loop rs rlev rnm c;
      do c <- up_all c;
      do t <- unwrap "unfocus: at_tree" (at_tree c);
      Ok (Some t, z_l_forest z, z_r_forest z)
  | None =>
      do ' (u, lf) <- up (z_l_forest z);
      if up_failed u then
        do ' (u, rf) <- up (z_r_forest z);
        if up_failed u then Ok (None, lf, rf)
        else
          do t <- unwrap "unfocus: right_tree" (right_tree rf);
          Ok (Some t, lf, rf)
      else
        do t <- unwrap "unfocus: left_tree" (left_tree lf);
        Ok (Some t, lf, z_r_forest z)
  end.
Definition s_mid (k : nat) (z : sraz_z E M) (vec : option (list E)) lnm llev ls rnm rlev rs
    : sm (level * list E) rdata (option (stree rdata) * scursor rdata * scursor rdata) :=
  match vec with
  | Some v =>
      act o <- s_tree_new 0%N None (Leaf v) None None;
      act t0 <- s_lift (unwrap "unfocus: leaf" o);
      act c <- s_unfocus_left_loop k ls llev lnm (sc_from t0);
      act c <- s_unfocus_right_loop k rs rlev rnm c;
      act c <- sc_up_all k c;
      act t <- s_lift (unwrap "unfocus: at_tree" (sc_tree c));
      s_ret (Some t, sz_lf z, sz_rf z)
  | None =>
      act ' (u, lf) <- sc_up (sz_lf z);
      if up_failed u then
        act ' (u, rf) <- sc_up (sz_rf z);
        if up_failed u then s_ret (None, lf, rf)
        else
          act o <- sc_right_tree rf;
          act t <- s_lift (unwrap "unfocus: right_tree" o);
          s_ret (Some t, lf, rf)
      else
        act o <- sc_left_tree lf;
        act t <- s_lift (unwrap "unfocus: left_tree" o);
        s_ret (Some t, lf, sz_rf z)
  end.
Definition p_left (u : up_result) (lf jc : cursor rdata) : res (cursor rdata) :=
  if up_failed u then Ok jc
  else
    do lev <- unwrap "unfocus: peek_level" (peek_level lf);
    let nm := peek_name lf in
    let (_, lf) := down_left_force ForceDiscard lf in
    c_join lf lev nm Dummy jc.
Definition s_left (k : nat) (u : up_result) (lf jc : scursor rdata)
    : sm (level * list E) rdata (scursor rdata) :=
  if up_failed u then s_ret jc
  else
    act lev <- s_lift (unwrap "unfocus: peek_level" (sc_peek_level lf));
    let nm := sc_peek_name lf in
    act ' (_, lf) <- sc_down_left_force ForceDiscard lf;
    sc_join k lf lev nm Dummy jc.
Definition p_right (u : up_result) (rf jc : cursor rdata) : res (cursor rdata) :=
  if up_failed u then Ok jc
  else
    do lev <- unwrap "unfocus: peek_level" (peek_level rf);
    let nm := peek_name rf in
    let (_, rf) := down_right_force ForceDiscard rf in
    c_join jc lev nm Dummy rf.
Definition s_right (k : nat) (u : up_result) (rf jc : scursor rdata)
    : sm (level * list E) rdata (scursor rdata) :=
  if up_failed u then s_ret jc
  else
    act lev <- s_lift (unwrap "unfocus: peek_level" (sc_peek_level rf));
    let nm := sc_peek_name rf in
    act ' (_, rf) <- sc_down_right_force ForceDiscard rf;
    sc_join k jc lev nm Dummy rf.

Lemma unfocus_eq z : unfocus z =
  do ' (lnm, llev, lvec, ls) <- unfocus_side (z_l_stack z);
  do ' (rnm, rlev, rvec, rs) <- unfocus_side (z_r_stack z);
  do ' (vec, lnm, llev, ls, rnm, rlev, rs) <- p_vec lnm llev lvec ls rnm rlev rvec rs;
  do ' (tr, lf, rf) <- p_mid z vec lnm llev ls rnm rlev rs;
  match tr with
  | None => mk_raz_tree None
  | Some tr =>
      do ' (u, lf) <- up lf;
      do jc <- p_left u lf (c_from tr);
      do ' (u, rf) <- up rf;
      do jc <- p_right u rf jc;
      do jc <- up_all jc;
      mk_raz_tree (at_tree jc)
  end.
Proof. reflexivity. Qed.
Lemma s_unfocus_eq k z : s_unfocus k z =
  act ' (lnm, llev, lvec, ls) <- s_unfocus_side (sz_ls z);
  act ' (rnm, rlev, rvec, rs) <- s_unfocus_side (sz_rs z);
  act ' (vec, lnm, llev, ls, rnm, rlev, rs) <- s_unfocus_vec lnm llev lvec ls rnm rlev rvec rs;
  act ' (tr, lf, rf) <- s_mid k z vec lnm llev ls rnm rlev rs;
  match tr with
  | None => s_mk_raz_tree None
  | Some tr =>
      act ' (u, lf) <- sc_up lf;
      act jc <- s_left k u lf (sc_from tr);
      act ' (u, rf) <- sc_up rf;
      act jc <- s_right k u rf jc;
      act jc <- sc_up_all k jc;
      s_mk_raz_tree (sc_tree jc)
  end.
Proof. reflexivity. Qed.

Lemma vec_sim st sls srs lnm llev lvec ls rnm rlev rvec rs vec lnm' llev' ls' rnm' rlev' rs' :
  arep st sls ls -> arep st srs rs ->
  p_vec lnm llev lvec ls rnm rlev rvec rs = Ok (vec, lnm', llev', ls', rnm', rlev', rs') ->
  exists sls' srs', s_unfocus_vec lnm llev lvec sls rnm rlev rvec srs st =
      Ok ((vec, lnm', llev', sls', rnm', rlev', srs'), st) /\ arep st sls' ls' /\ arep st srs' rs' /\
    sub (oroot lnm' ++ anames ls' ++ oroot rnm' ++ anames rs') (oroot lnm ++ anames ls ++ oroot rnm ++ anames rs).
Proof.
  intros Hl Hr Z. unfold p_vec in Z. unfold s_unfocus_vec.
  rewrite (sa_empty_sim _ _ _ Hl), (sa_empty_sim _ _ _ Hr).
  assert (Same : forall v, Ok (v, lnm, llev, ls, rnm, rlev, rs) = Ok (vec, lnm', llev', ls', rnm', rlev', rs') ->
    exists sls' srs', s_ret (v, lnm, llev, sls, rnm, rlev, srs) st =
      Ok ((vec, lnm', llev', sls', rnm', rlev', srs'), st) /\ arep st sls' ls' /\ arep st srs' rs' /\
    sub (oroot lnm' ++ anames ls' ++ oroot rnm' ++ anames rs') (oroot lnm ++ anames ls ++ oroot rnm ++ anames rs)).
  { intros v Q. injection Q as <- <- <- <- <- <- <-. exists sls, srs. split; [reflexivity|].
    split; [exact Hl|]. split; [exact Hr|apply sub_refl]. }
  destruct lvec as [lv|], rvec as [rv|].
  1,2,3: destruct (as_is_empty ls), (as_is_empty rs); apply Same; exact Z.
  destruct (as_is_empty ls).
  - destruct (as_is_empty rs); [apply Same; exact Z|].
    apply bind_Ok in Z. destruct Z as ([o a] & Nx & Z). apply bind_Ok in Z. destruct Z as ([v lv] & Uw & Z).
    injection Z as <- <- <- <- <- <- <-.
    destruct (sa_next_archive_sim _ _ _ _ _ Hr Nx) as (s2 & E1 & A2 & N). apply anames_next in N.
    destruct N as [_ N]. exists sls, s2. rewrite (s_bind_Ok _ _ _ _ _ E1).
    unfold s_bind, s_lift. rewrite Uw. rewrite (sa_name_sim _ _ _ Hr). split; [reflexivity|].
    split; [exact Hl|]. split; [exact A2|names].
  - assert (Z' : (do ' (o, ls1) <- as_next_archive ls; do ' (v, lev) <- unwrap "unfocus: next_archive" o;
      Ok (Some v, tree_name (as_name ls), lev, ls1, rnm, rlev, rs)) = Ok (vec, lnm', llev', ls', rnm', rlev', rs'))
      by (destruct (as_is_empty rs); exact Z). clear Z.
    apply bind_Ok in Z'. destruct Z' as ([o a] & Nx & Z). apply bind_Ok in Z. destruct Z as ([v lv] & Uw & Z).
    injection Z as <- <- <- <- <- <- <-.
    destruct (sa_next_archive_sim _ _ _ _ _ Hl Nx) as (s2 & E1 & A2 & N). apply anames_next in N.
    destruct N as [_ N]. exists s2, srs.
    destruct (as_is_empty rs); rewrite (s_bind_Ok _ _ _ _ _ E1);
      unfold s_bind, s_lift; rewrite Uw; rewrite (sa_name_sim _ _ _ Hl); (split; [reflexivity|]);
      (split; [exact A2|]); (split; [exact Hr|names]).
Qed.

(** Between the steps. *)
Record mid st (L : list name) (so : option (stree rdata)) slf srf (o : option (tree rdata)) lf rf : Prop := {
  m_tree : orep st so o;
  m_lf : irep st slf lf;
  m_rf : irep st srf rf;
  m_l_nil : r_forest lf = [];
  m_r_nil : l_forest rf = [];
  m_sub : sub (otnames o ++ iown lf ++ iown rf) L
}.

Lemma mid_sim z vec lnm llev ls rnm rlev rs o lf rf :
  p_mid z vec lnm llev ls rnm rlev rs = Ok (o, lf, rf) ->
  ev (fun k => forall st sz sls srs,
    uniq (own (z_l_forest z) ++ own (z_r_forest z) ++ oroot lnm ++ anames ls ++ oroot rnm ++ anames rs) ->
    crep st (sz_lf sz) (z_l_forest z) -> crep st (sz_rf sz) (z_r_forest z) ->
    r_forest (z_l_forest z) = [] -> l_forest (z_r_forest z) = [] ->
    arep st sls ls -> arep st srs rs ->
    exists so slf srf st', s_mid k sz vec lnm llev sls rnm rlev srs st = Ok ((so, slf, srf), st') /\
      upto (own (z_l_forest z) ++ own (z_r_forest z) ++ oroot lnm ++ anames ls ++ oroot rnm ++ anames rs) st st' /\
      mid st' (own (z_l_forest z) ++ own (z_r_forest z) ++ oroot lnm ++ anames ls ++ oroot rnm ++ anames rs)
        so slf srf o lf rf).
Proof.
  intros Z.
  pose proof (fown_own (z_l_forest z)) as F1. pose proof (fown_own (z_r_forest z)) as F2.
  pose proof (iown_own (z_l_forest z)) as I1. pose proof (iown_own (z_r_forest z)) as I2.
  unfold p_mid in Z. destruct vec as [v|].
  - apply bind_Ok in Z. destruct Z as (t0 & Lf & Z). apply bind_Ok in Z. destruct Z as (c1 & Z1 & Z).
    apply bind_Ok in Z. destruct Z as (c2 & Z2 & Z). apply bind_Ok in Z. destruct Z as (c3 & Z3 & Z).
    apply bind_Ok in Z. destruct Z as (t & Uw & Z). injection Z as <- <- <-.
    apply unfocus_left_loop_sim in Z1. apply unfocus_right_loop_sim in Z2.
    pose proof (ev_and _ _ Z1 Z2) as [k0 K0]. exists (k0 + S (forest_len c2)). clear Z1 Z2.
    intros k Hk st sz sls srs Un Hl Hr Nl Nr Al Ar.
    destruct (K0 k ltac:(lia)) as [K1 K2]. clear K0.
    destruct (leaf_new_sim st _ _ Lf) as (s0 & E0 & R0 & N0).
    assert (Ol : own (c_from t0) = []) by (rewrite own_from, N0; reflexivity). rewrite Ol in K1.
    destruct (K1 st sls (sc_from s0) ltac:(names) Al (from_crep _ _ _ R0)) as (sc1 & st1 & E1 & C1 & U1 & S1).
    assert (Ar1 : arep st1 srs rs) by (eapply arep_frame'; [exact U1|names|exact Ar]).
    destruct (K2 st1 srs sc1 ltac:(names) Ar1 C1) as (sc2 & st2 & E2 & C2 & U2 & S2).
    destruct (r3 up_all_sim _ _ _ _ k C2 ltac:(names) Z3 ltac:(lia)) as (sc3 & st3 & E3 & C3 & U3 & S3).
    unfold at_tree in Uw. destruct (c_tree c3) as [t'|] eqn:T3; [|discriminate]. injection Uw as ->.
    pose proof (proj2 C3) as R3. rewrite T3 in R3.
    destruct (sc_tree sc3) as [s3|] eqn:T3'; [|contradiction].
    assert (U : upto (oroot lnm ++ anames ls ++ oroot rnm ++ anames rs) st st3).
    { apply (upto_trans _ _ st1); [eapply upto_sub; [|exact U1]; names|].
      apply (upto_trans _ _ st2); [eapply upto_sub; [|exact U2]; names|].
      eapply upto_sub; [|exact U3]; names. }
    exists (Some s3), (sz_lf sz), (sz_rf sz), st3. split; [|split].
    + unfold s_mid. rewrite (s_bind_Ok _ _ _ _ _ E0). unfold s_bind at 1, s_lift at 1. cbn [unwrap].
      rewrite (s_bind_Ok _ _ _ _ _ E1), (s_bind_Ok _ _ _ _ _ E2), (s_bind_Ok _ _ _ _ _ E3).
      rewrite T3'. reflexivity.
    + eapply upto_sub; [|exact U]. names.
    + constructor; auto.
      * eapply irep_frame; [exact U|names|apply Hl].
      * eapply irep_frame; [exact U|names|apply Hr].
      * assert (S4 : sub (otnames (Some t)) (own c3)) by (unfold own; rewrite T3; names). names.
  - apply bind_Ok in Z. destruct Z as ([u lf1] & U & Z). destruct (up_failed u) eqn:F.
    + apply bind_Ok in Z. destruct Z as ([u2 rf1] & U2 & Z). destruct (up_failed u2) eqn:Fr.
      * injection Z as <- <- <-. apply ev_always. intros k st sz sls srs Un Hl Hr Nl Nr Al Ar.
        destruct (r3 up_sim _ _ _ _ _ (proj1 Hl) ltac:(names) U) as (sc1 & st1 & E1 & P1).
        pose proof (up_tree _ _ _ _ _ _ _ _ P1) as X1. destruct u; try discriminate.
        destruct X1 as (-> & -> & ->).
        destruct (r3 up_sim _ _ _ _ _ (proj1 Hr) ltac:(names) U2) as (sc2 & st2 & E2 & P2).
        pose proof (up_tree _ _ _ _ _ _ _ _ P2) as X2. destruct u2; try discriminate.
        destruct X2 as (-> & -> & ->).
        do 4 eexists. split; [unfold s_mid; rewrite (s_bind_Ok _ _ _ _ _ E1); cbn [up_failed];
          rewrite (s_bind_Ok _ _ _ _ _ E2); reflexivity|].
        split; [apply upto_refl|]. constructor; auto; [exact I|apply Hl|apply Hr|]. simpl. names.
      * apply bind_Ok in Z. destruct Z as (t & Uw & Z). injection Z as <- <- <-.
        apply ev_always. intros k st sz sls srs Un Hl Hr Nl Nr Al Ar.
        destruct (r3 up_sim _ _ _ _ _ (proj1 Hl) ltac:(names) U) as (sc1 & st1 & E1 & P1).
        pose proof (up_tree _ _ _ _ _ _ _ _ P1) as X1. destruct u; try discriminate.
        destruct X1 as (-> & -> & ->).
        destruct (r3 up_sim _ _ _ _ _ (proj1 Hr) ltac:(names) U2) as (sc2 & st2 & E2 & P2).
        pose proof (up_tree _ _ _ _ _ _ _ _ P2) as X2.
        destruct u2; [discriminate|destruct X2 as (d & s & t1 & t0 & _ & _ & _ & X & _); congruence|].
        destruct X2 as (d & s & t1 & t0 & X1 & X2 & X3 & X4 & X5 & X6 & X7).
        unfold right_tree in Uw. rewrite X2 in Uw.
        destruct X3 as (Y1 & Y2 & dd & sl & sr & Lk & _ & Rr).
        destruct (t_right t1) as [t1'|] eqn:Tr; [|discriminate]. injection Uw as ->.
        destruct sr as [sr|]; [|contradiction].
        pose proof (up_upto _ _ _ _ _ _ _ _ P2) as Up2.
        exists (Some sr), (sz_lf sz), sc2, st2. split; [|split].
        -- unfold s_mid. rewrite (s_bind_Ok _ _ _ _ _ E1). cbn [up_failed].
           rewrite (s_bind_Ok _ _ _ _ _ E2). cbn [up_failed]. unfold sc_right_tree. rewrite X1.
           rewrite (s_bind_Ok _ _ _ _ _ (right_Ok _ _ _ _ _ Lk)). reflexivity.
        -- eapply upto_sub; [|exact Up2]. names.
        -- constructor; auto.
           ++ eapply irep_frame; [exact Up2|names|apply Hl].
           ++ apply (up_irep _ _ _ _ _ _ _ _ P2).
           ++ congruence.
           ++ assert (S4 : sub (otnames (Some t) ++ iown rf1) (fown (z_r_forest z))).
              { unfold iown, fown. rewrite X2, X4, X5. cbn [rown otop]. rewrite <- X7, X6. names. }
              names.
    + apply bind_Ok in Z. destruct Z as (t & Uw & Z). injection Z as <- <- <-.
      apply ev_always. intros k st sz sls srs Un Hl Hr Nl Nr Al Ar.
      destruct (r3 up_sim _ _ _ _ _ (proj1 Hl) ltac:(names) U) as (sc2 & st2 & E2 & P2).
      pose proof (up_tree _ _ _ _ _ _ _ _ P2) as X2.
      destruct u; [discriminate| |destruct X2 as (d & s & t1 & t0 & _ & _ & _ & X & _); congruence].
      destruct X2 as (d & s & t1 & t0 & X1 & X2 & X3 & X4 & X5 & X6 & X7).
      unfold left_tree in Uw. rewrite X2 in Uw.
      destruct X3 as (Y1 & Y2 & dd & sl & sr & Lk & _ & Rr).
      destruct (t_left t1) as [t1'|] eqn:Tr; [|discriminate]. injection Uw as ->.
      destruct sl as [sl|]; [|contradiction].
      pose proof (up_upto _ _ _ _ _ _ _ _ P2) as Up2.
      exists (Some sl), sc2, (sz_rf sz), st2. split; [|split].
      * unfold s_mid. rewrite (s_bind_Ok _ _ _ _ _ E2). cbn [up_failed]. unfold sc_left_tree. rewrite X1.
        rewrite (s_bind_Ok _ _ _ _ _ (left_Ok _ _ _ _ _ Lk)). reflexivity.
      * eapply upto_sub; [|exact Up2]. names.
      * constructor; auto.
        -- apply (up_irep _ _ _ _ _ _ _ _ P2).
        -- eapply irep_frame; [exact Up2|names|apply Hr].
        -- congruence.
        -- assert (S4 : sub (otnames (Some t) ++ iown lf1) (fown (z_l_forest z))).
           { unfold iown, fown. rewrite X2, X4, X5. cbn [lown otop]. rewrite <- X7, X6. names. }
           names.
Qed.

Lemma left_sim lf u lf1 jc jc' : up lf = Ok (u, lf1) -> p_left u lf1 jc = Ok jc' ->
  ev (fun k => forall st slf sjc, irep st slf lf -> r_forest lf = [] -> crep st sjc jc ->
    uniq (fown lf ++ own jc) ->
    exists slf1 st1 sjc' st2, sc_up slf st = Ok ((u, slf1), st1) /\ s_left k u slf1 sjc st1 = Ok (sjc', st2) /\
      crep st2 sjc' jc' /\ upto (fown lf ++ own jc) st st2 /\ sub (own jc') (fown lf ++ own jc)).
Proof.
  intros U Z. unfold p_left in Z. destruct (up_failed u) eqn:F.
  - injection Z as <-. apply ev_always. intros k st slf sjc Hl Nl Hj Un.
    destruct (r3 up_sim _ _ _ _ _ Hl ltac:(names) U) as (sc1 & st1 & E1 & P1).
    pose proof (up_tree _ _ _ _ _ _ _ _ P1) as X1. destruct u; try discriminate.
    destruct X1 as (-> & -> & ->). do 4 eexists. split; [exact E1|]. split; [reflexivity|].
    split; [exact Hj|]. split; [apply upto_refl|names].
  - apply bind_Ok in Z. destruct Z as (lev & Lv & Z).
    destruct (down_left_force ForceDiscard lf1) as [b lf2] eqn:D.
    apply (ev_imp _ _ (r3 (join_sim (T := level * list E)) _ _ _ _ _ _ Z)).
    intros k K st slf sjc Hl Nl Hj Un.
    destruct (up_left_discard _ _ _ _ _ Hl Nl ltac:(names) U F)
      as (sc1 & st1 & sc2 & E1 & U1 & Q1 & Q2 & E2 & C2 & S2 & N2).
    rewrite D in C2, S2. cbn [snd] in C2, S2.
    assert (Hj1 : crep st1 sjc jc) by (eapply crep_frame; [exact U1|names|exact Hj]).
    destruct (K st1 sc2 sjc) as (sjc' & st2 & E3 & C3 & U3 & S3); [assumption|assumption|names|].
    exists sc1, st1, sjc', st2. split; [exact E1|]. split.
    + unfold s_left. rewrite F. unfold s_bind at 1, s_lift at 1. rewrite Q1, Lv, Q2.
      rewrite (s_bind_Ok _ _ _ _ _ E2). exact E3.
    + split; [exact C3|]. split; [|names].
      apply (upto_trans _ _ st1); [eapply upto_sub; [|exact U1]|eapply upto_sub; [|exact U3]]; names.
Qed.
Lemma right_sim rf u rf1 jc jc' : up rf = Ok (u, rf1) -> p_right u rf1 jc = Ok jc' ->
  ev (fun k => forall st srf sjc, irep st srf rf -> l_forest rf = [] -> crep st sjc jc ->
    uniq (fown rf ++ own jc) ->
    exists srf1 st1 sjc' st2, sc_up srf st = Ok ((u, srf1), st1) /\ s_right k u srf1 sjc st1 = Ok (sjc', st2) /\
      crep st2 sjc' jc' /\ upto (fown rf ++ own jc) st st2 /\ sub (own jc') (fown rf ++ own jc)).
Proof.
  intros U Z. unfold p_right in Z. destruct (up_failed u) eqn:F.
  - injection Z as <-. apply ev_always. intros k st slf sjc Hl Nl Hj Un.
    destruct (r3 up_sim _ _ _ _ _ Hl ltac:(names) U) as (sc1 & st1 & E1 & P1).
    pose proof (up_tree _ _ _ _ _ _ _ _ P1) as X1. destruct u; try discriminate.
    destruct X1 as (-> & -> & ->). do 4 eexists. split; [exact E1|]. split; [reflexivity|].
    split; [exact Hj|]. split; [apply upto_refl|names].
  - apply bind_Ok in Z. destruct Z as (lev & Lv & Z).
    destruct (down_right_force ForceDiscard rf1) as [b rf2] eqn:D.
    apply (ev_imp _ _ (r3 (join_sim (T := level * list E)) _ _ _ _ _ _ Z)).
    intros k K st slf sjc Hl Nl Hj Un.
    destruct (up_right_discard _ _ _ _ _ Hl Nl ltac:(names) U F)
      as (sc1 & st1 & sc2 & E1 & U1 & Q1 & Q2 & E2 & C2 & S2 & N2).
    rewrite D in C2, S2. cbn [snd] in C2, S2.
    assert (Hj1 : crep st1 sjc jc) by (eapply crep_frame; [exact U1|names|exact Hj]).
    destruct (K st1 sjc sc2) as (sjc' & st2 & E3 & C3 & U3 & S3); [assumption|assumption|names|].
    exists sc1, st1, sjc', st2. split; [exact E1|]. split.
    + unfold s_right. rewrite F. unfold s_bind at 1, s_lift at 1. rewrite Q1, Lv, Q2.
      rewrite (s_bind_Ok _ _ _ _ _ E2). exact E3.
    + split; [exact C3|]. split; [|names].
      apply (upto_trans _ _ st1); [eapply upto_sub; [|exact U1]|eapply upto_sub; [|exact U3]]; names.
Qed.

Theorem unfocus_sim z t : unfocus z = Ok t ->
  ev (fun k => forall st sz, zrep st sz z -> uniq (zown z) ->
    exists s st', s_unfocus k sz st = Ok (s, st') /\ rtrep st' s t /\ upto (zown z) st st' /\
      sub (rtnames t) (zown z)).
Proof.
  intros Z. rewrite unfocus_eq in Z.
  apply bind_Ok in Z. destruct Z as ([[[lnm llev] lvec] ls] & Zl & Z).
  apply bind_Ok in Z. destruct Z as ([[[rnm rlev] rvec] rs] & Zr & Z).
  apply bind_Ok in Z. destruct Z as ([[[[[[vec lnm'] llev'] ls'] rnm'] rlev'] rs'] & Zv & Z).
  apply bind_Ok in Z. destruct Z as ([[o lf] rf] & Zm & Z).
  assert (X : ev (fun k => forall st sz, zrep st sz z -> uniq (zown z) ->
    exists so slf srf st', mid st' (zown z) so slf srf o lf rf /\ upto (zown z) st st' /\
    s_unfocus k sz st = (match so with
      | None => s_mk_raz_tree None
      | Some tr =>
          act ' (u, lf) <- sc_up slf;
          act jc <- s_left k u lf (sc_from tr);
          act ' (u, rf) <- sc_up srf;
          act jc <- s_right k u rf jc;
          act jc <- sc_up_all k jc;
          s_mk_raz_tree (sc_tree jc)
      end) st')).
  { apply mid_sim in Zm. apply (ev_imp _ _ Zm). intros k K st sz H Un. rewrite s_unfocus_eq.
    destruct (unfocus_side_sim _ _ _ _ _ _ _ (zr_ls _ _ _ H) Zl) as (sls & E1 & A1 & S1).
    destruct (unfocus_side_sim _ _ _ _ _ _ _ (zr_rs _ _ _ H) Zr) as (srs & E2 & A2 & S2).
    destruct (vec_sim _ _ _ _ _ _ _ _ _ _ _ _ _ _ _ _ _ _ A1 A2 Zv) as (sls' & srs' & E3 & A3 & A4 & S3).
    unfold zown in Un. destruct H as [H1 H2 H3 H4 H5 H6].
    destruct (K st sz sls' srs') as (so & slf & srf & st' & E4 & U4 & M4); auto; [names|].
    exists so, slf, srf, st'. split; [|split].
    - destruct M4. constructor; auto. unfold zown. names.
    - eapply upto_sub; [|exact U4]. unfold zown. names.
    - rewrite (s_bind_Ok _ _ _ _ _ E1), (s_bind_Ok _ _ _ _ _ E2), (s_bind_Ok _ _ _ _ _ E3), (s_bind_Ok _ _ _ _ _ E4).
      reflexivity. }
  clear Zm Zv Zl Zr. destruct o as [tr|].
  - apply bind_Ok in Z. destruct Z as ([u lf1] & U1 & Z). apply bind_Ok in Z. destruct Z as (jc1 & J1 & Z).
    apply bind_Ok in Z. destruct Z as ([u2 rf1] & U2 & Z). apply bind_Ok in Z. destruct Z as (jc2 & J2 & Z).
    apply bind_Ok in Z. destruct Z as (jc3 & J3 & Z).
    pose proof (left_sim _ _ _ _ _ U1 J1) as L1. pose proof (right_sim _ _ _ _ _ U2 J2) as L2.
    destruct (ev_and _ _ X (ev_and _ _ L1 L2)) as [k0 K0]. exists (k0 + S (forest_len jc2)).
    intros k Hk st sz H Un. destruct (K0 k ltac:(lia)) as (K1 & K2 & K3). clear K0 X L1 L2.
    destruct (K1 st sz H Un) as (so & slf & srf & st1 & [M1 M2 M3 M4 M5 M6] & Up1 & E0). rewrite E0.
    destruct so as [str|]; [|contradiction].
    assert (IL : sub (fown lf) (iown lf)) by (unfold iown; names).
    assert (IR : sub (fown rf) (iown rf)) by (unfold iown; names).
    cbn [otnames] in M6.
    destruct (K2 st1 slf (sc_from str) M2 M4 (from_crep _ _ _ M1)) as
      (slf1 & st2 & sjc1 & st3 & E1 & E2 & C1 & Up2 & S1); [rewrite own_from; names|].
    rewrite own_from in Up2, S1.
    destruct (K3 st3 srf sjc1) as (srf1 & st4 & sjc2 & st5 & E3 & E4 & C2 & Up3 & S2).
    { eapply irep_frame; [exact Up2|names|exact M3]. }
    { exact M5. }
    { exact C1. }
    { names. }
    destruct (r3 up_all_sim _ _ _ _ k C2 ltac:(names) J3 ltac:(lia)) as (sjc3 & st6 & E5 & C3 & Up4 & S3).
    destruct (mk_raz_tree_sim st6 (sc_tree sjc3) (at_tree jc3) t (proj2 C3) Z) as (s & E6 & R6 & T6).
    exists s, st6. split; [|split; [exact R6|split]].
    + rewrite (s_bind_Ok _ _ _ _ _ E1), (s_bind_Ok _ _ _ _ _ E2), (s_bind_Ok _ _ _ _ _ E3),
        (s_bind_Ok _ _ _ _ _ E4), (s_bind_Ok _ _ _ _ _ E5). exact E6.
    + apply (upto_trans _ _ st1); [exact Up1|]. apply (upto_trans _ _ st3); [eapply upto_sub; [|exact Up2]; names|].
      apply (upto_trans _ _ st5); [eapply upto_sub; [|exact Up3]; names|]. eapply upto_sub; [|exact Up4]; names.
    + unfold rtnames. rewrite T6. assert (S4 : sub (otnames (at_tree jc3)) (own jc3)) by (unfold own, at_tree; names).
      names.
  - apply (ev_imp _ _ X). intros k K st sz H Un.
    destruct (K st sz H Un) as (so & slf & srf & st1 & [M1 M2 M3 M4 M5 M6] & Up1 & E0). rewrite E0.
    destruct so as [str|]; [contradiction|].
    destruct (mk_raz_tree_sim st1 None None t I Z) as (s & E6 & R6 & T6).
    exists s, st1. split; [exact E6|]. split; [exact R6|]. split; [exact Up1|].
    unfold rtnames. rewrite T6. simpl. names.
Qed.
End Raz.
