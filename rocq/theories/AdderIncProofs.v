(** * The adder over stores answers as the plain one. *)

From Verif Require Import Base BaseFacts Spec SpecRaz StackModel StackScripts StackProofs AStackModel LevelTreeModel TreeSpec TreeProofs TreeCursorModel RazMetaModel RazModel RazView RazProofs
  RazFrom RazScripts RazReach MemoModel MemoSpec StoreModel StoreSpec StoreScripts StoreProofs StoreRaz StoreHistory IncModel IncSpec AccumModel AccumScripts AccumProofs ExampleModel
  ExampleSpec ExampleProofs AdderProofs StoreNs StoreMapModel StoreMapSpec StoreMapProofs IncFromModel IncFromSpec IncFromProofs ListIncModel ListIncSpec ListIncProofs TokenIncModel TokenIncProofs ParseIncModel ParseIncProofs
  AdderIncModel AdderIncSpec.

(** ** Names *)
Section Names.
Context {M : Type} {RM : RazMeta N M}.
Notation tok_res := (res (astack token level * option N)).
Definition tnode (a : tok_res) (d : tree_data N M) (l : level) (n : option name) : tok_res :=
  match d with
  | Leaf v => fold_left (fun a c => do st <- a; tokenize_step (astack_iface token) st c) v a
  | _ => do st <- a; Ok (tokenize_meta (astack_iface token) st (l, n))
  end.
Definition held (n : name) (a : tok_res) : nat := match a with Ok (s, _) => cnt n (snames s) | _ => 0 end.
Lemma step_held n st c : held n (tokenize_step (astack_iface token) st c) <= cnt n (snames (fst st)).
Proof.
  destruct st as [s p]. unfold tokenize_step, push_op. destruct (to_digit c) as [d|].
  - cbv zeta. match goal with |- context [(99999 <? ?x)%N] => destruct (99999 <? x)%N end; exact (le_n _).
  - destruct p, (c =? 43)%N; try exact (le_n _); destruct (c =? 44)%N; first [exact (le_n _)|apply Nat.le_0_l].
Qed.
Lemma tnode_held n a d l nm : held n (tnode a d l nm) <= held n a + match d with Leaf _ => 0 | _ => cnt n (oroot nm) end.
Proof.
  assert (Ar : held n (do st <- a; Ok (tokenize_meta (astack_iface token) st (l, nm))) <= held n a + cnt n (oroot nm)).
  { destruct a as [[[[|x cur] ar] p]| |]; try apply Nat.le_0_l.
    - change (cnt n (ohnames ar) <= cnt n (ohnames ar) + cnt n (oroot nm)). lia.
    - assert (cnt n (oroot nm ++ ohnames ar) <= cnt n (ohnames ar) + cnt n (oroot nm)) by (rewrite cnt_app; lia). destruct nm; assumption. }
  destruct d as [|m1 m2|v]; [exact Ar|exact Ar|]. cbn [tnode]. clear Ar. revert a. induction v as [|c v IH]; intros a; cbn [fold_left]; [lia|].
  specialize (IH (do st <- a; tokenize_step (astack_iface token) st c)). destruct a as [[s p]| |]; cbn [bind held] in *; try exact IH.
  pose proof (step_held n (s, p) c) as H. cbn [fst] in H. lia.
Qed.
Lemma fold_held n t : tree_ok t -> forall s a, held n (t_fold_lr_meta tnode t s a) <= held n a + cnt n (tnames t).
Proof.
  induction t as [lv nm d l r IHl IHr] using tree_induction. intros O s a. apply tree_ok_case in O.
  destruct O as [(v & O & _)|(lv' & nm' & ml & mr & tl & tr & O & _ & _ & _ & Ol & Or)]; inv O.
  - pose proof (tnode_held n a (Leaf v) 0%N s) as H. cbn [t_fold_lr_meta leaf_of]. cbn [t_fold_lr_meta] in *. lia.
  - cbn [optP] in IHl, IHr. rewrite tnames_eq. cbn [t_fold_lr_meta t_name t_left t_right otnames]. rewrite !cnt_app.
    pose proof (IHl Ol s a) as H1. set (a1 := t_fold_lr_meta tnode tl s a) in *. pose proof (tnode_held n a1 (Branch ml mr) lv' nm') as H2.
    set (a2 := tnode a1 (Branch ml mr) lv' nm') in *. pose proof (IHr Or nm' a2) as H3. cbv iota in H2. lia.
Qed.
Lemma tokens_sub free (t : raz_tree N M) a : tree_reached free t -> tokenize_tree (astack_iface token) t = Ok a -> sub (snames a) (node_names t).
Proof.
  intros Re H n. destruct (tree_reached_good _ Re) as [O _]. unfold node_names.
  unfold tokenize_tree, rt_fold_lr_meta in H.
  assert (F : forall st, snames (tokenize_final (astack_iface token) st) = snames (fst st)) by (intros [s [p|]]; reflexivity).
  destruct (rt_tree t) as [u|].
  - apply bind_Ok in H. destruct H as (st & H & Q). injection Q as <-. rewrite F. cbn [oinorder]. rewrite names_cnt.
    pose proof (fold_held n u O (Some (NStr "start")) (Ok (as_new, None))) as B. unfold tnode in B.
    change (@if_new token _ (astack_iface token)) with (@as_new token level) in H. rewrite H in B. destruct st as [s p]. cbn [held fst] in *.
    change (snames as_new) with (@nil name) in B. rewrite cnt_nil in B. lia.
  - injection H as <-. apply Nat.le_0_l.
Qed.
Lemma tokens_names free (t : raz_tree N M) a : tree_reached free t -> NoDup (node_names t) -> tokenize_tree (astack_iface token) t = Ok a -> uniq (snames a).
Proof. intros Re Nd H n. apply uniq_NoDup in Nd. specialize (Nd n). pose proof (tokens_sub free t a Re H n). lia. Qed.
Lemma tokens_fit free (t : raz_tree N M) a : tree_reached free t -> levels_in (fun l => l < u32_max)%N (contents t) -> tokenize_tree (astack_iface token) t = Ok a ->
  as_inv a /\ levels_in (fun l => l < u32_max)%N (as_abs a).
Proof.
  intros Re Lv H. pose proof (tokenize_tree_sim (as_rel_levels token) t (proj1 (tree_reached_good t Re)) Lv) as S. rewrite H in S.
  destruct (tokenize_vec (vec_iface token) (elts (contents t))); try contradiction. destruct S as ((J & _) & L). auto.
Qed.
End Names.

Section From.
Context {E M : Type} {RM : RazMeta E M} {Nsp : here}.
Lemma made_names (o : option (tree (tree_data E M))) (t : raz_tree E M) : mk_raz_tree o = Ok t -> rtnames t = otnames o.
Proof. unfold mk_raz_tree. intros H. destruct o; repeat (apply bind_Ok in H; destruct H as (? & _ & H)); now injection H as <-. Qed.
Lemma from_names (st : store (level * list E) (tree_data E M)) sa (a : astack E level) (t : raz_tree E M) : from_at_tail a = Ok t -> uniq (snames a) -> arep st sa a -> sub (rtnames t) (snames a).
Proof.
  intros H Un Ra. unfold from_at_tail in H.
  apply bind_Ok in H. destruct H as ([o a1] & H1 & H).
  destruct (sa_next_archive_sim _ _ _ _ _ Ra H1) as (sa1 & X1 & Ra1 & N1).
  assert (N1' : snames a = oroot (as_name a) ++ snames a1) by exact N1. clear N1.
  destruct o as [[vec [lev|]]|].
  - apply bind_Ok in H. destruct H as (ft & H2 & H). apply bind_Ok in H. destruct H as ([[[s2 l] n] u] & H3 & H).
    apply bind_Ok in H. destruct H as (u1 & H4 & H). apply bind_Ok in H. destruct H as (u2 & H5 & H).
    apply bind_Ok in H. destruct H as (u3 & H6 & H).
    destruct (leaf_sim st vec None) as (sl & X2 & R2). destruct (R2 _ H2 eq_refl) as [Rl Nl].
    destruct (tail_from_sim _ _ _ _ _ _ _ _ _ _ H3 ltac:(rewrite Nl; rewrite N1' in Un; names) _ st sa1 sl (le_n _) Ra1 Rl)
      as (x & st1 & X3 & sa' & s' & -> & Y1 & Y2 & Y3 & Y4 & Y5 & Y6).
    rewrite (made_names _ _ H), N1'. cbn [otnames]. rewrite Nl in Y4. names.
  - apply bind_Ok in H. destruct H as (ft & H2 & H). destruct (leaf_sim st vec None) as (sl & X2 & R2). destruct (R2 _ H2 eq_refl) as [Rl Nl].
    rewrite (made_names _ _ H). cbn [otnames]. rewrite Nl. intros n. rewrite cnt_nil. lia.
  - rewrite (made_names _ _ H). intros n. cbn [otnames]. rewrite cnt_nil. lia.
Qed.
End From.

(** The token stack as the conversion sees it. *)
Lemma tokens_seen {A} (cs : wcells (body (level * list token))) (st : store (level * list token) A) h s :
  ListIncSpec.stack_reads cs h s -> ohrep (fun a => match cs a with Some (e, n) => Some (CBody e n) | None => st a end) h s.
Proof.
  induction 1 as [|e h l H IH|p n e h l Q H IH]; cbn [ohrep]; [exact I| |].
  - apply hrep_eq. split; [reflexivity|]. exists h. split; [reflexivity|exact IH].
  - apply hrep_eq. split; [reflexivity|]. exists h. split; [|exact IH]. cbn [head_look]. now rewrite Q.
Qed.

Section Adder.
Context {M M' : Type} {RM : RazMeta N M} {RM' : RazMeta token M'} (eqK : forall x y : token, {x = y} + {x <> y}) (eqD : forall x y : tree_data N M, {x = y} + {x <> y})
  (eqD' : forall x y : tree_data token M', {x = y} + {x <> y}) (q1 q2 q3 : list name).
Lemma adder_tables m : adder_ran eqK eqD eqD' q1 q2 q3 m ->
  (exists hist, w_ran (tokenize_inc (Nsp := q1) eqD) hist (m_memo1 m)) /\ (exists hist, cran (v_from_at_tail (Nsp := q2) eqK eqD') hist (m_memo2 m)) /\
  exists hist, w_ran (parse_inc (Nsp := q3) eqD') hist (m_memo3 m).
Proof.
  induction 1 as [m H1 H2 H3|m k t st y m' c _ ([h1 R1] & [h2 R2] & [h3 R3]) H|m m' _ IH H1 H2 H3].
  - rewrite H1, H2, H3. repeat split; exists []; constructor.
  - unfold adder_store in H. apply bind_Ok in H. destruct H as ([[[[ts cs1] t1] tab1] l1] & G1 & H).
    apply bind_Ok in H. destruct H as ([[[[tr st2] t2] tab2] l2] & G2 & H). apply bind_Ok in H. destruct H as ([[[[ns cs3] t3] tab3] l3] & G3 & H). injection H as <- <- <-.
    cbn [m_memo1 m_memo2 m_memo3]. split; [eexists; exact (w_ran_more _ _ _ _ _ _ _ _ _ _ _ _ R1 G1)|].
    split; eexists; [exact (cran_more _ _ _ _ _ _ _ _ _ _ _ R2 G2)|exact (w_ran_more _ _ _ _ _ _ _ _ _ _ _ _ R3 G3)].
  - now rewrite H1, H2, H3.
Qed.
Theorem next_adder free (t : raz_tree N M) : tree_reached free t -> NoDup (node_names t) -> levels_in (fun l => l < u32_max)%N (contents t) ->
  exists k0, forall k m st h, k0 <= k -> adder_ran eqK eqD eqD' q1 q2 q3 m -> tree_reads st h t ->
  match adder_inc (RM' := RM') t with
  | Ok s => exists y m' c, adder_store eqK eqD eqD' q1 q2 q3 k h st m = Ok (y, m', c) /\ astack_reads (m_numbers m') y s /\
      (forall b, fst b <> q1 \/ ~ In (snd b) (node_names t) -> m_tokens m' b = m_tokens m b) /\
      (forall b, fst b <> q2 \/ ~ In (snd b) (node_names t) -> m_trees m' b = match m_tokens m' b with Some (e, n) => Some (CBody e n) | None => m_trees m b end) /\
      (forall b, fst b <> q3 \/ ~ In (snd b) (node_names t) -> m_numbers m' b = m_numbers m b)
  | Panic e => adder_store eqK eqD eqD' q1 q2 q3 k h st m = Panic e
  | Fuel => adder_store eqK eqD eqD' q1 q2 q3 k h st m = Fuel
  end.
Proof.
  intros Re Nd Lv. destruct (next_tokenize (Nsp := q1) eqD free t Re Nd) as (k1 & K1). unfold adder_inc.
  destruct (tokenize_tree (astack_iface token) t) as [a|e|] eqn:Et; cbn [bind].
  2, 3: exists k1; intros k m st h Hk Rm Rd; destruct (adder_tables m Rm) as ([h1 R1] & _); unfold adder_store; now rewrite (K1 k h1 _ st _ h Hk R1 Rd).
  pose proof (tokens_names free t a Re Nd Et) as Un. pose proof (tokens_sub free t a Re Et) as Sa. destruct (tokens_fit free t a Re Lv Et) as [J La].
  destruct (from_at_tail_ok (M := M') a J La) as (tr & Ef & Ec & _ & B). rewrite Ef. cbn [bind].
  assert (Sn : NoDup (stack_names a)) by (apply uniq_NoDup; intros n; rewrite stack_names_cnt; apply Un).
  destruct (next_from_tail (Nsp := q2) eqK eqD' a tr Ef Sn) as (k2 & K2).
  assert (Bn : match rt_tree tr with None => True | Some u => binary u end) by (destruct (rt_tree tr); [apply B|exact I]).
  destruct (next_parse_binary (Nsp := q3) eqD' tr Bn) as (k3 & K3).
  assert (Pt : exists s, parse_tree (astack_iface N) tr = Ok s).
  { destruct (parse_tree_sim (as_rel_levels N) tr Bn) as (s & Q & _); [rewrite Ec; now apply levels_in_rev|]. now exists s. }
  destruct Pt as (s & Ep). rewrite Ep. exists (max k1 (max k2 k3)). intros k m st h Hk Rm Rd. destruct (adder_tables m Rm) as ([h1 R1] & [h2 R2] & [h3 R3]).
  destruct (K1 k h1 _ st (m_tokens m) h ltac:(lia) R1 Rd) as (ts & cs1 & t1 & tab1 & l1 & G1 & [A1 A2] & F1).
  assert (Ra : arep (with_tokens cs1 (m_trees m)) ts a) by (split; [exact A1|exact (tokens_seen cs1 (m_trees m) _ _ A2)]).
  destruct (K2 k h2 _ (with_tokens cs1 (m_trees m)) ts ltac:(lia) R2) as (hr & st2 & t2 & tab2 & l2 & G2 & Rt & F2 & _); [now apply stack_reads_rep|].
  pose proof (from_names (Nsp := q2) _ _ _ _ Ef Un Ra) as Sb.
  assert (Ut : uniq (rtnames tr)) by (intros n; specialize (Sb n); specialize (Un n); lia).
  destruct (K3 k h3 _ st2 (m_numbers m) hr ltac:(lia) Ut R3 Rt) as (y & cs3 & t3 & tab3 & l3 & s' & G3 & Ep' & Rs & F3).
  rewrite Ep in Ep'. injection Ep' as <-. exists y, (Memory cs1 st2 cs3 tab1 tab2 tab3), (length l1, length l2, length l3). split; [|split; [exact Rs|]].
  { unfold adder_store. rewrite G1. cbn [bind]. rewrite G2. cbn [bind]. rewrite G3. reflexivity. }
  cbn [m_tokens m_trees m_numbers]. split; [exact F1|]. split.
  - intros b D. apply F2. destruct D as [D|D]; [now left|right]. rewrite cnt_zero in D |- *. rewrite stack_names_cnt. specialize (Sa (snd b)). lia.
  - intros b D. apply F3. destruct D as [D|D]; [now left|right]. rewrite cnt_zero in D. specialize (Sa (snd b)). specialize (Sb (snd b)). lia.
Qed.
End Adder.
