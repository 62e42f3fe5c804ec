(** * The memoised [memo_from] over the store answers as the pure one. *)

From Verif Require Import Base BaseFacts Spec StackModel AStackModel LevelTreeModel TreeSpec TreeProofs TreeCursorModel RazMetaModel RazModel MemoModel
  MemoSpec MemoProofs MemoHistory StoreModel StoreSpec StoreScripts StoreProofs StoreRaz StoreHistory StoreNs StoreMapModel StoreMapSpec
  StoreMapProofs IncModel IncSpec IncProofs IncFromModel IncFromSpec.

Lemma v_bind_Ok {T A K R X Y} (m : vm T A K R X) (f : X -> vm T A K R Y) st tab y st2 s tab2 lg :
  v_bind m f st tab = Ok (y, st2, s, tab2, lg) ->
  exists x st1 s1 tab1 lg1 s2 lg2, m st tab = Ok (x, st1, s1, tab1, lg1) /\ f x st1 tab1 = Ok (y, st2, s2, tab2, lg2) /\
    s = s1 ++ s2 /\ lg = lg1 ++ lg2.
Proof.
  unfold v_bind. intros H. apply bind_Ok in H. destruct H as ([[[[x st1] s1] tab1] lg1] & H1 & H).
  apply bind_Ok in H. destruct H as ([[[[y' st2'] s2] tab2'] lg2] & H2 & H). inv H. eauto 12.
Qed.
Lemma v_bind_eq {T A K R X Y} (m : vm T A K R X) (f : X -> vm T A K R Y) st tab x st1 s1 tab1 lg1 :
  m st tab = Ok (x, st1, s1, tab1, lg1) ->
  v_bind m f st tab = do ' (y, st2, s2, tab2, lg2) <- f x st1 tab1; Ok (y, st2, s1 ++ s2, tab2, lg1 ++ lg2).
Proof. intros H. unfold v_bind. now rewrite H. Qed.
Lemma v_lift_Ok {T A K R X} (m : res X) st tab x st' s tab' (lg : list K) : (v_lift m : vm T A K R X) st tab = Ok (x, st', s, tab', lg) ->
  m = Ok x /\ st' = st /\ s = [] /\ tab' = tab /\ lg = [].
Proof. unfold v_lift. intros H. apply bind_Ok in H. destruct H as (y & -> & H). inv H. auto. Qed.

Ltac vstep H x st s tab lg H1 :=
  let s2 := fresh "sr" in let lg2 := fresh "lr" in
  apply v_bind_Ok in H; destruct H as (x & st & s & tab & lg & s2 & lg2 & H1 & H & -> & ->).

(** ** Handles and contents compared *)
Section Same.
Context {T A : Type} (eqT : forall x y : T, {x = y} + {x <> y}) (eqA : forall x y : A, {x = y} + {x <> y}).

Definition sheadP (P : shead T -> Prop) (o : option (shead T)) : Prop := match o with None => True | Some x => P x end.
Fixpoint shead_induction (P : shead T -> Prop) (HP : forall e n, sheadP P n -> P (HPut e n)) (HC : forall a, P (HCell a)) h : P h :=
  match h with
  | HPut e n => HP e n (match n with None => I | Some x => shead_induction P HP HC x end)
  | HCell a => HC a
  end.
Lemma shead_same_eq h : forall h', shead_same eqT h h' = true <-> h = h'.
Proof.
  induction h as [e n IH|a] using shead_induction; intros [e' n'|a']; simpl; try (split; [discriminate|congruence]).
  - rewrite andb_true_iff. destruct (eqT e e') as [->|D]; [|split; [intros [? _]; discriminate|congruence]].
    assert (X : match n, n' with None, None => true | Some x, Some y => shead_same eqT x y | _, _ => false end = true <-> n = n').
    { destruct n as [x|], n' as [y|]; simpl in IH; split; intros Q; try discriminate; auto.
      - f_equal. now apply IH.
      - injection Q as ->. now apply IH. }
    rewrite X. split; [intros [_ ->]; reflexivity|intros [= ->]; auto].
  - destruct (loc_eq_dec a a') as [->|D]; split; auto; try discriminate. congruence.
Qed.
Lemma oshead_same_eq o p : oshead_same eqT o p = true <-> o = p.
Proof.
  destruct o as [x|], p as [y|]; simpl; try (split; [discriminate|congruence]); [|split; auto].
  rewrite shead_same_eq. split; congruence.
Qed.
Lemma cell_same_eq (c c' : cell_data T A) : cell_same eqT eqA c c' = true <-> c = c'.
Proof.
  destruct c as [e n|d l r], c' as [e' n'|d' l' r']; simpl; try (split; [discriminate|congruence]).
  - rewrite andb_true_iff, oshead_same_eq. destruct (eqT e e') as [->|D]; split; try (intros [? ?]; discriminate); try congruence.
    + intros [_ ->]. reflexivity.
    + intros [= ->]. auto.
  - rewrite !andb_true_iff, !ostree_same_eq. destruct (eqA d d') as [->|D]; split; try (intros [[? ?] ?]; discriminate); try congruence.
    + intros [[_ ->] ->]. reflexivity.
    + intros [= -> ->]. auto.
Qed.
Lemma cholds_eq st (s : cseen T A) : cholds eqT eqA st s = true <-> st (fst s) = Some (snd s).
Proof.
  unfold cholds. destruct (st (fst s)) as [c|]; [|split; discriminate]. rewrite cell_same_eq. split; congruence.
Qed.
Definition cheld (st : store T A) (tr : list (cseen T A)) : Prop := forallb (cholds eqT eqA st) tr = true.
Lemma cheld_app st tr tr' : cheld st (tr ++ tr') <-> cheld st tr /\ cheld st tr'.
Proof. unfold cheld. now rewrite forallb_app, andb_true_iff. Qed.
Lemma cheld_one st a c : cheld st [(a, c)] <-> st a = Some c.
Proof. unfold cheld. cbn [forallb]. rewrite andb_true_r, cholds_eq. reflexivity. Qed.
Lemma cheld_nil st : cheld st [].
Proof. reflexivity. Qed.
End Same.

(** ** Reading and making cells *)
Section Cells.
Context {T A : Type} (eqT : forall x y : T, {x = y} + {x <> y}) (eqA : forall x y : A, {x = y} + {x <> y}) {Nsp : here} {K R : Type}.
Notation vm := (vm T A K R).
Notation cheld := (cheld eqT eqA).
Implicit Types (st : store T A) (tab : ctab T A K R).

Lemma v_force_head_Ok h st tab x st' tr tab' lg : v_force_head h st tab = Ok (x, st', tr, tab', lg) ->
  st' = st /\ tab' = tab /\ lg = [] /\ s_force_head h st = Ok (x, st) /\ forall st2, cheld st2 tr -> s_force_head h st2 = Ok (x, st2).
Proof.
  unfold v_force_head. intros H. apply bind_Ok in H. destruct H as (y & H1 & H). inv H.
  unfold s_force_head. rewrite H1. repeat split; auto. intros st2 P. destruct h as [e n|a]; [cbn in H1; inv H1; reflexivity|].
  apply cheld_one in P. simpl. rewrite P. now destruct x.
Qed.
Lemma v_force_head_eq h st tab x st' : s_force_head h st = Ok (x, st') ->
  st' = st /\ exists tr, v_force_head h st tab = Ok (x, st, tr, tab, []).
Proof.
  unfold s_force_head, v_force_head. destruct (head_look st h) as [y|]; [|discriminate]. cbn. intros H. inv H. eauto.
Qed.
Lemma v_peek_Ok t st tab d st' tr tab' lg : v_peek t st tab = Ok (d, st', tr, tab', lg) ->
  st' = st /\ tab' = tab /\ lg = [] /\ st_peek t st = Ok (d, st) /\ forall st2, cheld st2 tr -> st_peek t st2 = Ok (d, st2).
Proof.
  unfold v_peek. intros H. vstep H x st1 tr1 tab1 lg1 H1. destruct x as [[d0 l0] r0]. inv H. unfold v_force_tree in H1.
  apply bind_Ok in H1. destruct H1 as (y & H1 & H). inv H. unfold st_peek, s_bind, s_force_tree. rewrite H1.
  repeat split; auto. intros st2 P. rewrite app_nil_r in P. destruct t as [lv e l r|lv a]; [cbn in H1; inv H1; reflexivity|].
  apply cheld_one in P. cbn [tree_look fst snd] in *. rewrite P. reflexivity.
Qed.
Lemma v_peek_eq t st tab d st' : st_peek t st = Ok (d, st') -> st' = st /\ exists tr, v_peek t st tab = Ok (d, st, tr, tab, []).
Proof.
  unfold st_peek, s_bind, s_force_tree, v_peek, v_bind, v_force_tree. destruct (tree_look st t) as [[[d0 l] r]|]; [|discriminate].
  cbn. intros H. inv H. split; [reflexivity|]. eexists. reflexivity.
Qed.
Lemma v_new_eq lv nm d l r st tab : exists tr,
  v_tree_new lv nm d l r st tab = match s_tree_new lv nm d l r st with Ok (o, st') => Ok (o, st', tr, tab, []) | Panic m => Panic m | Fuel => Fuel end.
Proof. unfold v_tree_new, s_tree_new, s_bind, s_ret, s_cell. destruct nm; eexists; reflexivity. Qed.
End Cells.

Section Raz.
Context {E M : Type} {RM : RazMeta E M} (eqE : forall x y : E, {x = y} + {x <> y})
  (eqD : forall x y : tree_data E M, {x = y} + {x <> y}) {Nsp : here}.
Notation rdata := (tree_data E M).
Notation rstore := (store (level * list E) rdata).
Notation vkey := (@vkey E M).
Notation vres := (@s_from_result E M).
Notation rtab := (ctab (level * list E) rdata vkey vres).
Notation cheld := (cheld (eqL eqE) eqD).
Implicit Types (st : rstore) (tab : rtab).

Lemma v_next_Ok s st tab x st' tr tab' lg : v_next_archive s st tab = Ok (x, st', tr, tab', lg) ->
  st' = st /\ tab' = tab /\ lg = [] /\ forall st2, cheld st2 tr -> sa_next_archive s st2 = Ok (x, st2).
Proof.
  unfold v_next_archive, sa_next_archive. destruct (sa_is_empty s); [intros H; inv H; auto|].
  destruct (sa_archived s) as [h|]; cbn [ss_is_empty]; [|intros H; inv H; auto]. intros H.
  vstep H o st1 tr1 tab1 lg1 H1. vstep H mv st2 tr2 tab2 lg2 H2. destruct mv as [m v].
  vstep H o2 st3 tr3 tab3 lg3 H3. vstep H rest st4 tr4 tab4 lg4 H4. inv H.
  cbn [v_ss_peek v_ss_pull] in H1, H3.
  vstep H1 x1 st5 tr5 tab5 lg5 H1'. destruct x1 as [e n]. inv H1. apply (v_force_head_Ok (eqL eqE) eqD) in H1'. destruct H1' as (-> & -> & -> & _ & P1).
  apply v_lift_Ok in H2. destruct H2 as (H2 & -> & -> & -> & ->). cbn [unwrap] in H2. inv H2.
  vstep H3 x1 st6 tr6 tab6 lg6 H3'. destruct x1 as [e n']. inv H3. apply (v_force_head_Ok (eqL eqE) eqD) in H3'. destruct H3' as (-> & -> & -> & _ & P3).
  apply v_lift_Ok in H4. destruct H4 as (H4 & -> & -> & -> & ->). cbn [unwrap] in H4. inv H4.
  repeat split; auto. intros st2 P. rewrite !cheld_app in P. destruct P as ((Q1 & _) & _ & (Q3 & _) & _).
  cbn [ss_peek ss_pull]. unfold s_bind. rewrite (P1 _ Q1). cbn [unwrap s_lift s_ret]. rewrite (P3 _ Q3). reflexivity.
Qed.
Lemma v_next_eq s st tab x st' : sa_next_archive s st = Ok (x, st') -> st' = st /\ exists tr, v_next_archive s st tab = Ok (x, st, tr, tab, []).
Proof.
  unfold v_next_archive, sa_next_archive. destruct (sa_is_empty s); [intros H; inv H; split; [reflexivity|]; eexists; reflexivity|].
  destruct (sa_archived s) as [h|]; cbn [ss_is_empty]; [|intros H; inv H; split; [reflexivity|]; eexists; reflexivity].
  cbn [ss_peek ss_pull v_ss_peek v_ss_pull]. unfold s_bind at 1 2. intros H.
  destruct (s_force_head h st) as [[x1 st1]| |] eqn:F; try discriminate. destruct (v_force_head_eq (A := rdata) (K := vkey) (R := vres) h st tab _ _ F) as (-> & tr & V).
  destruct x1 as [[m v] n]. cbn [s_ret s_lift unwrap] in H. unfold s_bind in H. cbn [s_ret s_lift unwrap] in H. rewrite F in H. cbn in H. inv H.
  split; [reflexivity|]. eexists. unfold v_bind. rewrite V. cbn [v_ret v_lift unwrap bind]. rewrite V. cbn [bind]. reflexivity.
Qed.
Lemma v_leaf_eq v st tab : v_leaf v None st tab = Ok (TPut 0%N (Leaf v : rdata) None None, st, [], tab, []).
Proof. reflexivity. Qed.
Lemma v_bin_Ok s1 lv nm s2 st tab h st' tr tab' lg : v_bin s1 lv nm s2 st tab = Ok (h, st', tr, tab', lg) ->
  tab' = tab /\ lg = [] /\ forall st2 t1 t2 t, cheld st2 tr -> rep st2 s1 t1 -> rep st2 s2 t2 -> bin t1 lv nm t2 = Ok t -> rep st2 h t.
Proof.
  unfold v_bin. intros H. vstep H d1 st1 tr1 tab1 lg1 H1. vstep H d2 st2 tr2 tab2 lg2 H2. vstep H td st3 tr3 tab3 lg3 H3.
  vstep H o st4 tr4 tab4 lg4 H4. apply (v_peek_Ok (eqL eqE) eqD) in H1. destruct H1 as (-> & -> & -> & _ & P1).
  apply (v_peek_Ok (eqL eqE) eqD) in H2. destruct H2 as (-> & -> & -> & _ & P2). apply v_lift_Ok in H3. destruct H3 as (H3 & -> & -> & -> & ->).
  apply v_lift_Ok in H. destruct H as (H & -> & -> & -> & ->). destruct o as [s5|]; inv H.
  assert (Q4 : tab4 = tab /\ lg4 = []) by (unfold v_tree_new in H4; destruct nm; inv H4; auto). destruct Q4 as [-> ->].
  repeat split; auto. intros st5 t1 t2 t P R1 R2 B. rewrite !cheld_app in P. destruct P as (Q1 & Q2 & _ & Q4 & _).
  unfold bin in B. apply bind_Ok in B. destruct B as (d & Hd & B). apply new_Ok in B. subst t.
  pose proof (proj1 (rep_eq _ _ _) R1) as (_ & _ & a1 & b1 & L1 & _). pose proof (proj1 (rep_eq _ _ _) R2) as (_ & _ & a2 & b2 & L2 & _).
  pose proof (peek_Ok _ _ _ _ _ L1) as Z1. rewrite (P1 _ Q1) in Z1. injection Z1 as ->.
  pose proof (peek_Ok _ _ _ _ _ L2) as Z2. rewrite (P2 _ Q2) in Z2. injection Z2 as ->.
  rewrite H3 in Hd. injection Hd as <-. apply rep_eq. cbn [t_level t_name t_peek t_left t_right]. unfold v_tree_new in H4.
  destruct nm as [n|]; inv H4; cbn [st_level st_name snd]; (split; [reflexivity|]); (split; [reflexivity|]);
    exists (Some s1), (Some s2); (split; [|split; cbn [orep]; auto]); [|reflexivity].
  apply cheld_one in Q4. cbn [tree_look]. now rewrite Q4.
Qed.
Lemma v_bin_eq s1 lv nm s2 st tab h st' : s_bin s1 lv nm s2 st = Ok (h, st') -> exists tr, v_bin s1 lv nm s2 st tab = Ok (h, st', tr, tab, []).
Proof.
  unfold s_bin, v_bin. intros H. unfold s_bind at 1 in H. destruct (st_peek s1 st) as [[d1 st1]| |] eqn:F1; try discriminate.
  destruct (v_peek_eq (K := vkey) (R := vres) s1 st tab _ _ F1) as (-> & tr1 & V1). unfold s_bind at 1 in H.
  destruct (st_peek s2 st) as [[d2 st2]| |] eqn:F2; try discriminate. destruct (v_peek_eq (K := vkey) (R := vres) s2 st tab _ _ F2) as (-> & tr2 & V2).
  unfold s_bind at 1 in H. destruct (td_rebuild _ _ _ _ _) as [d| |] eqn:F3; try discriminate. cbn [s_lift] in H.
  unfold s_bind in H. destruct (v_new_eq (T := level * list E) (K := vkey) (R := vres) lv nm d (Some s1) (Some s2) st tab) as [tr4 V4].
  destruct (s_tree_new lv nm d (Some s1) (Some s2) st) as [[o st4]| |]; try discriminate. destruct o as [s5|]; [|discriminate]. cbn in H. inv H.
  eexists. rewrite (v_bind_eq _ _ _ _ _ _ _ _ _ V1), (v_bind_eq _ _ _ _ _ _ _ _ _ V2).
  rewrite (v_bind_eq (v_lift (td_rebuild (Some d1) Dummy lv nm (Some d2))) _ st tab d st [] tab []) by (unfold v_lift; now rewrite F3).
  rewrite (v_bind_eq _ _ _ _ _ _ _ _ _ V4). reflexivity.
Qed.

(** ** Names of the results *)
Lemma next_names (a : astack E level) o a1 : as_next_archive a = Ok (o, a1) -> snames a = oroot (as_name a) ++ snames a1.
Proof.
  unfold as_next_archive, as_name, snames. destruct (as_is_empty a) eqn:Em.
  - intros H. inv H. unfold as_is_empty in Em. destruct (current a1), (archived a1); try discriminate. reflexivity.
  - destruct (archived a) as [h|]; cbn [stack_is_empty]; [|intros H; inv H; reflexivity].
    intros H. apply bind_Ok in H. destruct H as ([m v] & _ & H). apply bind_Ok in H. destruct H as (r & H2 & H). inv H.
    cbn [archived]. destruct (stack_pull (Some h)) as [r'|] eqn:SP; [|discriminate]. cbn [unwrap] in H2. inv H2. exact (stack_pull_names _ _ SP).
Qed.
Lemma leaf_names v (t : tree rdata) : leaf v None = Ok t -> tnames t = [].
Proof. intros H. unfold leaf in H. simpl in H. inv H. reflexivity. Qed.
Lemma bin_names (t1 t2 t : tree rdata) lv nm : bin t1 lv nm t2 = Ok t -> tnames t = oroot nm ++ tnames t1 ++ tnames t2.
Proof. unfold bin. intros H. apply bind_Ok in H. destruct H as (d & _ & H). apply new_Ok in H. subst t. rewrite tnames_eq. reflexivity. Qed.

(** ** The table is sound *)
Lemma sastack_same_eq s s' : sastack_same eqE s s' = true <-> s = s'.
Proof.
  unfold sastack_same. rewrite andb_true_iff, oshead_same_eq. destruct s as [c h], s' as [c' h']. cbn [sa_current sa_archived].
  destruct (list_eq_dec eqE c c') as [->|D]; split.
  - intros [_ ->]. reflexivity.
  - intros [= ->]. auto.
  - intros [? _]. discriminate.
  - congruence.
Qed.
Lemma vkey_same_eq k k' : vkey_same eqE eqD k k' = true -> k = k'.
Proof.
  destruct k as [[[[s l] n] t] m], k' as [[[[s' l'] n'] t'] m']. unfold vkey_same. rewrite !andb_true_iff.
  intros ((((H1 & H2) & H3) & H4) & H5). apply sastack_same_eq in H1. apply N.eqb_eq in H2. apply stree_same_eq in H4. apply N.eqb_eq in H5.
  destruct (oname_eq_dec n n') as [->|]; [|discriminate]. congruence.
Qed.

(** What an entry promises, when the computation is this one over immutable values. *)
Section Sound.
Variable pure : nat -> astack E level -> level -> option name -> tree rdata -> level -> res (@from_result E M).
Definition from_good (k : vkey) st (r : vres) : Prop :=
  let '(s, lv, nm, h, mx) := k in let '(s', l, n, h') := r in
  forall fuel a acc a' l' n' t', arep st s a -> rep st h acc -> pure fuel a lv nm acc mx = Ok (a', l', n', t') ->
  l = l' /\ n = n' /\ arep st s' a' /\ rep st h' t'.
Definition vsound tab : Prop := forall b e, tab b = Some e -> forall st, cheld st (ce_seen e) -> from_good (ce_arg e) st (ce_res e).
Lemma vsound_none : vsound no_centries.
Proof. discriminate. Qed.
Definition sound_call (k : vkey) (m : vm (level * list E) rdata vkey vres vres) : Prop :=
  forall st tab r st' tr tab' lg, vsound tab -> m st tab = Ok (r, st', tr, tab', lg) ->
  vsound tab' /\ forall st2, cheld st2 tr -> from_good k st2 r.
Lemma memo_call_sound k m : sound_call k m -> sound_call k (v_from_memo eqE eqD k m).
Proof.
  intros B st tab r st' tr tab' lg Sd H. destruct k as [[[[s lv] nm] h] mx]. unfold v_from_memo in H.
  destruct (fork_left nm) as [n|]; [|eapply B; eauto]. cbn [v_memo_opt] in H. unfold v_memo in H.
  set (k := (s, lv, nm, h, mx)) in *.
  assert (Rr : (do ' (r, st', s0, tab', lg) <- m st tab; Ok (r, st', s0, c_set tab' (path, n) (CEntry k s0 r), lg)) = Ok (r, st', tr, tab', lg) ->
     vsound tab' /\ forall st2, cheld st2 tr -> from_good k st2 r).
  { intros Q. apply bind_Ok in Q. destruct Q as ([[[[r1 st1] tr1] tab1] lg1] & Q & Z). inv Z.
    destruct (B _ _ _ _ _ _ _ Sd Q) as [S1 G]. split; [|exact G]. intros b e. unfold c_set.
    destruct (loc_eq_dec b (path, n)) as [->|Ne]; [|apply S1]. intros [= <-]. exact G. }
  destruct (tab (path, n)) as [e|] eqn:Te; [|exact (Rr H)].
  destruct (vkey_same eqE eqD k (ce_arg e) && forallb (cholds (eqL eqE) eqD st) (ce_seen e)) eqn:Sm; [|exact (Rr H)].
  apply andb_true_iff in Sm. destruct Sm as (Sk & _). apply vkey_same_eq in Sk. rewrite Sk. inv H.
  split; [exact Sd|]. exact (Sd _ _ Te).
Qed.
(** A call that can be answered, by its entry or by its body. *)
Lemma memo_call_total s lv nm h mx m st tab (a : astack E level) acc fuel a' l' n' t' L : vsound tab -> arep st s a -> rep st h acc ->
  pure fuel a lv nm acc mx = Ok (a', l', n', t') ->
  (exists s' h' st' tr tab' lg, m st tab = Ok ((s', l', n', h'), st', tr, tab', lg) /\ arep st' s' a' /\ rep st' h' t' /\ upto L st st') ->
  exists s' h' st' tr tab' lg, v_from_memo eqE eqD (s, lv, nm, h, mx) m st tab = Ok ((s', l', n', h'), st', tr, tab', lg) /\
    arep st' s' a' /\ rep st' h' t' /\ upto L st st'.
Proof.
  intros Sd Ra Rh Pu (s' & h' & st' & tr & tab' & lg & B & R1 & R2 & U). unfold v_from_memo.
  destruct (fork_left nm) as [n|]; [|eauto 12]. cbn [v_memo_opt]. unfold v_memo. set (k := (s, lv, nm, h, mx)).
  assert (Rr : exists s' h' st' tr tab' lg,
    (do ' (r, st', s0, tab', lg) <- m st tab; Ok (r, st', s0, c_set tab' (path, n) (CEntry k s0 r), lg)) = Ok ((s', l', n', h'), st', tr, tab', lg) /\
      arep st' s' a' /\ rep st' h' t' /\ upto L st st').
  { rewrite B. cbn [bind]. eauto 12. }
  destruct (tab (path, n)) as [e|] eqn:Te; [|exact Rr].
  destruct (vkey_same eqE eqD k (ce_arg e) && forallb (cholds (eqL eqE) eqD st) (ce_seen e)) eqn:Sm; [|exact Rr].
  apply andb_true_iff in Sm. destruct Sm as (Sk & P). apply vkey_same_eq in Sk.
  pose proof (Sd _ _ Te _ P) as G. rewrite <- Sk in G. destruct (ce_res e) as [[[s1 l1] n1] h1]. unfold k in G. cbn in G.
  destruct (G _ _ _ _ _ _ _ Ra Rh Pu) as (-> & -> & G1 & G2). exists s1, h1, st. do 3 eexists. split; [reflexivity|].
  repeat split; auto. apply G1. apply G1.
Qed.
End Sound.

Lemma v_mk_Ok so st tab x st' tr tab' lg : v_mk_raz_tree so st tab = Ok (x, st', tr, tab', lg) -> st' = st /\ tab' = tab /\ lg = [].
Proof.
  unfold v_mk_raz_tree. intros H. vstep H m st1 tr1 tab1 lg1 H1. inv H. destruct so as [s|]; cbn [v_treetop_meta] in H1; [|inv H1; auto].
  vstep H1 d st2 tr2 tab2 lg2 H2. apply (v_peek_Ok (eqL eqE) eqD) in H2. destruct H2 as (-> & -> & -> & _). destruct d; inv H1; auto.
Qed.
Lemma v_mk_eq so st tab x st' : s_mk_raz_tree so st = Ok (x, st') -> st' = st /\ exists tr, v_mk_raz_tree so st tab = Ok (x, st, tr, tab, []).
Proof.
  unfold s_mk_raz_tree, v_mk_raz_tree. destruct so as [s|]; cbn [s_treetop_meta v_treetop_meta]; [|intros H; inv H; split; [reflexivity|]; eexists; reflexivity].
  unfold s_bind. destruct (st_peek s st) as [[d st1]| |] eqn:F; try discriminate.
  destruct (v_peek_eq (K := vkey) (R := vres) s st tab _ _ F) as (-> & tr & V). intros H. unfold v_bind. rewrite V. cbn [bind].
  destruct d; cbn in H; inv H; (split; [reflexivity|]); eexists; reflexivity.
Qed.
Lemma stack_names_uniq (a : astack E level) : NoDup (stack_names a) -> uniq (snames a).
Proof. intros Nd. apply uniq_NoDup in Nd. intros n. rewrite <- stack_names_cnt. apply Nd. Qed.
Lemma stack_names_upto (a : astack E level) st st' : upto (snames a) st st' ->
  forall b, fst b <> path \/ ~ In (snd b) (stack_names a) -> st' b = st b.
Proof. intros U b [D|D]; apply U; [now left|right]. apply cnt_zero in D. now rewrite <- stack_names_cnt. Qed.

(** ** [memo_from(&AtTail)] *)
Lemma tail_names k : forall (a : astack E level) lev nm (acc : tree rdata) mx a' l' n' t', tail_from_stack k a lev nm acc mx = Ok (a', l', n', t') ->
  sub (oroot n' ++ snames a' ++ tnames t') (oroot nm ++ snames a ++ tnames acc).
Proof.
  induction k as [|k IH]; intros a lev nm acc mx a' l' n' t' H; [discriminate|]. cbn [tail_from_stack] in H.
  apply bind_Ok in H. destruct H as (u1 & H1 & H). apply bind_Ok in H. destruct H as (u2 & H2 & H).
  apply bind_Ok in H. destruct H as ([o a1] & H3 & H). apply bind_Ok in H. destruct H as ([vec nl] & H4 & H).
  apply bind_Ok in H. destruct H as (lt & H5 & H). apply bind_Ok in H. destruct H as ([[[sh fl] fn] sm] & H6 & H).
  apply bind_Ok in H. destruct H as (nt & H7 & H).
  apply next_names in H3. apply leaf_names in H5. apply bin_names in H7. rewrite H3.
  assert (S6 : sub (oroot fn ++ snames sh ++ tnames sm) (oroot (as_name a) ++ snames a1)).
  { destruct nl as [lev0|]; [destruct (lev0 <? lev)%N; [apply IH in H6; rewrite H5 in H6; names|]|]; inv H6; rewrite H5; [names|]. rewrite (snames_new (E := E)). cbn [oroot]. names. }
  destruct fl as [lv|]; [destruct (lv <? mx)%N; [apply IH in H; rewrite H7 in H; names|]|]; inv H; rewrite H7; [names|]. rewrite (snames_new (E := E)). cbn [oroot]. names.
Qed.

Notation tail_good := (from_good tail_from_stack).
Lemma v_tail_sound k : forall s lev nm h mx, sound_call tail_from_stack (s, lev, nm, h, mx) (v_tail_from_stack eqE eqD k s lev nm h mx).
Proof.
  induction k as [|k IH]; intros s lev nm h mx st tab r st' tr tab' lg Sd H; [discriminate|]. cbn [v_tail_from_stack] in H.
  vstep H u0 st0 tr0 tab0 lg0 H0. inv H0. vstep H u1 st1 tr1 tab1 lg1 H1. apply v_lift_Ok in H1. destruct H1 as (H1 & -> & -> & -> & ->).
  vstep H u2 st2 tr2 tab2 lg2 H2. apply v_lift_Ok in H2. destruct H2 as (H2 & -> & -> & -> & ->).
  vstep H x3 st3 tr3 tab3 lg3 H3. destruct x3 as [o s1]. apply v_next_Ok in H3. destruct H3 as (-> & -> & -> & P3).
  vstep H x4 st4 tr4 tab4 lg4 H4. destruct x4 as [vec nl]. apply v_lift_Ok in H4. destruct H4 as (H4 & -> & -> & -> & ->).
  destruct o as [[vec' nl']|]; [|discriminate]. cbn [unwrap] in H4. injection H4 as -> ->.
  vstep H hl st5 tr5 tab5 lg5 H5. rewrite v_leaf_eq in H5. inv H5.
  vstep H x6 st6 tr6 tab6 lg6 H6. destruct x6 as [[[sh fl] fn] hm].
  vstep H hn st7 tr7 tab7 lg7 H7. apply v_bin_Ok in H7. destruct H7 as (-> & -> & P7).
  assert (G6 : vsound tail_from_stack tab6 /\ forall st2, cheld st2 tr6 -> forall fuel a1 lt sh' fl' fn' sm',
    arep st2 s1 a1 -> leaf vec None = Ok lt ->
    match nl with
    | None => Ok (as_new, None, None, lt)
    | Some lev0 => if (lev0 <? lev)%N then tail_from_stack fuel a1 lev0 (sa_name s) lt lev else Ok (a1, Some lev0, sa_name s, lt)
    end = Ok (sh', fl', fn', sm') -> fl = fl' /\ fn = fn' /\ arep st2 sh sh' /\ rep st2 hm sm').
  { assert (Rl : forall st2 lt, leaf vec None = Ok lt -> rep st2 (TPut 0%N (Leaf vec : rdata) None None) lt).
    { intros st2 lt Q. destruct (leaf_sim st2 vec None) as (sl & X & Y). cbn in X. inv X. now apply Y. }
    destruct nl as [lev0|].
    - destruct (lev0 <? lev)%N.
      + destruct (memo_call_sound _ _ _ (IH s1 lev0 (sa_name s) (TPut 0%N (Leaf vec) None None) lev) _ _ _ _ _ _ _ Sd H6) as [Sd6 G].
        split; [exact Sd6|]. intros st2 P fuel a1 lt sh' fl' fn' sm' R1 L Q. cbn in G. exact (G st2 P fuel a1 lt _ _ _ _ R1 (Rl _ _ L) Q).
      + inv H6. split; [exact Sd|]. intros st2 P fuel a1 lt sh' fl' fn' sm' R1 L Q. inv Q. auto.
    - inv H6. split; [exact Sd|]. intros st2 P fuel a1 lt sh' fl' fn' sm' R1 L Q. inv Q. repeat split; auto using new_rep. }
  destruct G6 as [Sd6 G6].
  assert (G8 : vsound tail_from_stack tab' /\ forall st2, cheld st2 sr0 -> forall fuel sh' nt a' l' n' t',
    arep st2 sh sh' -> rep st2 hn nt ->
    match fl with
    | None => Ok (as_new, None, None, nt)
    | Some lv => if (lv <? mx)%N then tail_from_stack fuel sh' lv fn nt mx else Ok (sh', Some lv, fn, nt)
    end = Ok (a', l', n', t') -> let '(s', l, n, h') := r in l = l' /\ n = n' /\ arep st2 s' a' /\ rep st2 h' t').
  { destruct fl as [lv|].
    - destruct (lv <? mx)%N.
      + destruct (memo_call_sound _ _ _ (IH sh lv fn hn mx) _ _ _ _ _ _ _ Sd6 H) as [Sd8 G].
        split; [exact Sd8|]. intros st2 P fuel sh' nt a' l' n' t' R1 R2 Q. specialize (G st2 P). unfold from_good in G.
        destruct r as [[[s' l] n] h']. exact (G fuel sh' nt _ _ _ _ R1 R2 Q).
      + inv H. split; [exact Sd6|]. intros st2 P fuel sh' nt a' l' n' t' R1 R2 Q. inv Q. auto.
    - inv H. split; [exact Sd6|]. intros st2 P fuel sh' nt a' l' n' t' R1 R2 Q. inv Q. repeat split; auto using new_rep. }
  destruct G8 as [Sd8 G8]. split; [exact Sd8|]. clear H H6 IH. intros st2 P. unfold from_good. destruct r as [[[s' l] n] h'].
  intros fuel a acc a' l' n' t' Ra Rh Q. rewrite !cheld_app in P. destruct P as (_ & _ & _ & Q3 & _ & _ & Q6 & Q7 & Q8).
  destruct fuel as [|fuel]; [discriminate|]. cbn [tail_from_stack] in Q.
  apply bind_Ok in Q. destruct Q as (v1 & _ & Q). apply bind_Ok in Q. destruct Q as (v2 & _ & Q).
  apply bind_Ok in Q. destruct Q as ([o a1] & A3 & Q). apply bind_Ok in Q. destruct Q as ([vec2 nl2] & A4 & Q).
  apply bind_Ok in Q. destruct Q as (lt & A5 & Q). apply bind_Ok in Q. destruct Q as ([[[sh' fl'] fn'] sm'] & A6 & Q).
  apply bind_Ok in Q. destruct Q as (nt & A7 & Q).
  destruct (sa_next_archive_sim _ _ _ _ _ Ra A3) as (sa1 & X3 & Ra1 & _). rewrite (P3 _ Q3) in X3. injection X3 as <- ->.
  cbn [unwrap] in A4. injection A4 as -> ->. rewrite <- (sa_name_sim _ _ _ Ra) in A6.
  destruct (G6 st2 Q6 fuel a1 lt _ _ _ _ Ra1 A5 A6) as (-> & -> & B1 & B2).
  pose proof (P7 st2 _ _ _ Q7 B2 Rh A7) as B3. exact (G8 st2 Q8 fuel _ _ _ _ _ _ B1 B3 Q).
Qed.

Lemma v_tail_total k0 : forall (a : astack E level) lev nm (acc : tree rdata) mx a' l' n' t',
  tail_from_stack k0 a lev nm acc mx = Ok (a', l', n', t') -> uniq (oroot nm ++ snames a ++ tnames acc) ->
  forall k st tab s h, k0 <= k -> arep st s a -> rep st h acc -> vsound tail_from_stack tab ->
  exists s' h' st' tr tab' lg, v_tail_from_stack eqE eqD k s lev nm h mx st tab = Ok ((s', l', n', h'), st', tr, tab', lg) /\
    arep st' s' a' /\ rep st' h' t' /\ upto (oroot nm ++ snames a) st st'.
Proof.
  induction k0 as [|k0 IH]; intros a lev nm acc mx a' l' n' t' H Un k st tab s h K Ra Rt Sd; [discriminate|].
  destruct k as [|k]; [lia|]. cbn [tail_from_stack] in H. cbn [v_tail_from_stack].
  apply bind_Ok in H. destruct H as (u1 & H1 & H). apply bind_Ok in H. destruct H as (u2 & H2 & H).
  apply bind_Ok in H. destruct H as ([o a1] & H3 & H). apply bind_Ok in H. destruct H as ([vec nl] & H4 & H).
  apply bind_Ok in H. destruct H as (lt & H5 & H). apply bind_Ok in H. destruct H as ([[[sh fl] fn] sm] & H6 & H).
  apply bind_Ok in H. destruct H as (nt & H7 & H).
  rewrite (v_bind_eq _ _ _ _ _ _ _ _ _ (eq_refl : v_enter _ st tab = Ok (tt, st, [], tab, [(s, lev, nm, h, mx)]))).
  rewrite (rep_level _ _ _ Rt), H1, H2.
  rewrite (v_bind_eq _ _ _ _ _ _ _ _ _ (eq_refl : v_lift (Ok u1) st tab = Ok (u1, st, [], tab, []))).
  rewrite (v_bind_eq _ _ _ _ _ _ _ _ _ (eq_refl : v_lift (Ok u2) st tab = Ok (u2, st, [], tab, []))).
  rewrite (sa_name_sim _ _ _ Ra).
  destruct (sa_next_archive_sim _ _ _ _ _ Ra H3) as (sa1 & X3 & Ra1 & N3). destruct (v_next_eq _ _ tab _ _ X3) as (_ & tr3 & V3).
  rewrite (v_bind_eq _ _ _ _ _ _ _ _ _ V3). rewrite H4.
  rewrite (v_bind_eq _ _ _ _ _ _ _ _ _ (eq_refl : v_lift (Ok (vec, nl)) st tab = Ok ((vec, nl), st, [], tab, []))).
  rewrite (v_bind_eq _ _ _ _ _ _ _ _ _ (v_leaf_eq vec st tab)). set (sl := TPut 0%N (Leaf vec : rdata) None None).
  assert (Q5 : rep st sl lt /\ tnames lt = []).
  { destruct (leaf_sim st vec None) as (sl' & X5 & R5). cbn in X5. inv X5. exact (R5 _ H5 eq_refl). }
  destruct Q5 as [Rl Nl].
  assert (N3' : snames a = oroot (as_name a) ++ snames a1) by exact N3. rewrite N3' in Un |- *. clear N3.
  assert (S6 : exists ssh ssm st1 tr tab1 lg, match nl with
      | None => v_ret (sa_new, None, None, sl)
      | Some lev0 => if (lev0 <? lev)%N then v_from_memo eqE eqD (sa1, lev0, as_name a, sl, lev) (v_tail_from_stack eqE eqD k sa1 lev0 (as_name a) sl lev)
                     else v_ret (sa1, Some lev0, as_name a, sl)
      end st tab = Ok ((ssh, fl, fn, ssm), st1, tr, tab1, lg) /\ arep st1 ssh sh /\ rep st1 ssm sm /\
      upto (oroot (as_name a) ++ snames a1) st st1 /\ sub (oroot fn ++ snames sh ++ tnames sm) (oroot (as_name a) ++ snames a1) /\
      vsound tail_from_stack tab1).
  { destruct nl as [lev0|].
    - destruct (lev0 <? lev)%N.
      + destruct (memo_call_total _ sa1 lev0 (as_name a) sl lev (v_tail_from_stack eqE eqD k sa1 lev0 (as_name a) sl lev) st tab _ _ _ _ _ _ _ (oroot (as_name a) ++ snames a1) Sd Ra1 Rl H6
          (IH _ _ _ _ _ _ _ _ _ H6 ltac:(rewrite Nl; names) k st tab sa1 sl ltac:(lia) Ra1 Rl Sd))
          as (ssh & ssm & st1 & tr & tab1 & lg & X & Y1 & Y2 & Y3).
        exists ssh, ssm, st1, tr, tab1, lg. split; [exact X|]. repeat (split; [assumption|]).
        split; [pose proof (tail_names _ _ _ _ _ _ _ _ _ _ H6) as Z; rewrite Nl in Z; names|].
        exact (proj1 (memo_call_sound _ _ _ (v_tail_sound k sa1 lev0 (as_name a) sl lev) _ _ _ _ _ _ _ Sd X)).
      + injection H6 as <- <- <- <-. do 6 eexists. split; [reflexivity|]. rewrite Nl. repeat split; auto; try apply Ra1; names.
    - injection H6 as <- <- <- <-. do 6 eexists. split; [reflexivity|]. rewrite Nl, (snames_new (E := E)). cbn [oroot].
      split; [apply new_rep|]. split; [exact Rl|]. split; [apply upto_refl|]. split; [names|exact Sd]. }
  destruct S6 as (ssh & ssm & st1 & tr6 & tab1 & lg6 & X6 & Rsh & Rsm & U6 & S6 & Sd1).
  rewrite (v_bind_eq _ _ _ _ _ _ _ _ _ X6). clear X6.
  assert (Rt1 : rep st1 h acc) by (apply (rep_frame _ _ _ _ _ U6); [names|exact Rt]).
  destruct (bin_sim st1 ssm sm h acc lev nm nt Rsm Rt1 ltac:(names) H7) as (sn & st2 & X7 & Rn & U7 & Nn & Ln).
  destruct (v_bin_eq _ _ _ _ _ tab1 _ _ X7) as (tr7 & V7). rewrite (v_bind_eq _ _ _ _ _ _ _ _ _ V7).
  assert (Rsh2 : arep st2 ssh sh) by (apply (arep_frame _ _ _ _ _ U7); [fold (snames sh); names|exact Rsh]).
  assert (U2 : upto (oroot nm ++ oroot (as_name a) ++ snames a1) st st2).
  { apply (upto_trans _ _ st1); [apply (upto_sub (oroot (as_name a) ++ snames a1)); [names|exact U6]|apply (upto_sub (oroot nm)); [names|exact U7]]. }
  destruct fl as [lv|].
  - destruct (lv <? mx)%N.
    + destruct (memo_call_total _ ssh lv fn sn mx (v_tail_from_stack eqE eqD k ssh lv fn sn mx) st2 tab1 _ _ _ _ _ _ _ (oroot fn ++ snames sh) Sd1 Rsh2 Rn H
        (IH _ _ _ _ _ _ _ _ _ H ltac:(rewrite Nn; names) k st2 tab1 ssh sn ltac:(lia) Rsh2 Rn Sd1))
        as (s' & h' & st3 & tr & tab3 & lg & X & Y1 & Y2 & Y3).
      rewrite X. cbn [bind]. do 6 eexists. split; [reflexivity|]. split; [exact Y1|]. split; [exact Y2|].
      apply (upto_trans _ _ st2); [exact U2|]. apply (upto_sub (oroot fn ++ snames sh)); [names|exact Y3].
    + injection H as <- <- <- <-. cbn [v_ret bind]. do 6 eexists. split; [reflexivity|]. auto.
  - injection H as <- <- <- <-. cbn [v_ret bind]. do 6 eexists. split; [reflexivity|]. auto using new_rep.
Qed.

Lemma from_tail_sound k s st tab x st' tr tab' lg : vsound tail_from_stack tab ->
  v_from_at_tail eqE eqD k s st tab = Ok (x, st', tr, tab', lg) -> vsound tail_from_stack tab'.
Proof.
  intros Sd H. unfold v_from_at_tail in H. vstep H x1 st1 tr1 tab1 lg1 H1. destruct x1 as [o s1].
  apply v_next_Ok in H1. destruct H1 as (-> & -> & -> & _). destruct o as [[vec [lev|]]|].
  - vstep H hl st5 tr5 tab5 lg5 H5. rewrite v_leaf_eq in H5. inv H5.
    vstep H x6 st6 tr6 tab6 lg6 H6. destruct x6 as [[[s2 l] n] h2].
    vstep H u1 st7 tr7 tab7 lg7 H7. apply v_lift_Ok in H7. destruct H7 as (_ & -> & -> & -> & ->).
    vstep H u2 st8 tr8 tab8 lg8 H8. apply v_lift_Ok in H8. destruct H8 as (_ & -> & -> & -> & ->).
    vstep H u3 st9 tr9 tab9 lg9 H9. apply v_lift_Ok in H9. destruct H9 as (_ & -> & -> & -> & ->).
    apply v_mk_Ok in H. destruct H as (_ & -> & _).
    exact (proj1 (memo_call_sound _ _ _ (v_tail_sound k _ _ _ _ _) _ _ _ _ _ _ _ Sd H6)).
  - vstep H hl st5 tr5 tab5 lg5 H5. rewrite v_leaf_eq in H5. inv H5. apply v_mk_Ok in H. destruct H as (_ & -> & _). exact Sd.
  - apply v_mk_Ok in H. destruct H as (_ & -> & _). exact Sd.
Qed.
Lemma from_tail_total (a : astack E level) (t : raz_tree E M) : from_at_tail a = Ok t -> uniq (snames a) ->
  ev (fun k => forall st tab s, vsound tail_from_stack tab -> arep st s a ->
    exists h st' tr tab' lg, v_from_at_tail eqE eqD k s st tab = Ok (h, st', tr, tab', lg) /\ rtrep st' h t /\ upto (snames a) st st').
Proof.
  intros H Un. exists (S (S (archives a))). intros k K st tab s Sd Ra. unfold from_at_tail in H. unfold v_from_at_tail.
  apply bind_Ok in H. destruct H as ([o a1] & H1 & H).
  destruct (sa_next_archive_sim _ _ _ _ _ Ra H1) as (sa1 & X1 & Ra1 & N1). destruct (v_next_eq _ _ tab _ _ X1) as (_ & tr1 & V1).
  assert (N1' : snames a = oroot (as_name a) ++ snames a1) by exact N1. clear N1.
  rewrite (v_bind_eq _ _ _ _ _ _ _ _ _ V1). rewrite (sa_name_sim _ _ _ Ra).
  destruct o as [[vec [lev|]]|].
  - apply bind_Ok in H. destruct H as (ft & H2 & H). apply bind_Ok in H. destruct H as ([[[s2 l] n] u] & H3 & H).
    apply bind_Ok in H. destruct H as (u1 & H4 & H). apply bind_Ok in H. destruct H as (u2 & H5 & H).
    apply bind_Ok in H. destruct H as (u3 & H6 & H).
    rewrite (v_bind_eq _ _ _ _ _ _ _ _ _ (v_leaf_eq vec st tab)). set (sl := TPut 0%N (Leaf vec : rdata) None None).
    assert (Q5 : rep st sl ft /\ tnames ft = []).
    { destruct (leaf_sim st vec None) as (sl' & X5 & R5). cbn in X5. inv X5. exact (R5 _ H2 eq_refl). }
    destruct Q5 as [Rl Nl].
    destruct (memo_call_total _ sa1 lev (as_name a) sl u32_max (v_tail_from_stack eqE eqD k sa1 lev (as_name a) sl u32_max) st tab _ _ _ _ _ _ _ (oroot (as_name a) ++ snames a1) Sd Ra1 Rl H3
      (v_tail_total _ _ _ _ _ _ _ _ _ _ H3 ltac:(rewrite Nl; rewrite N1' in Un; names) k st tab sa1 sl K Ra1 Rl Sd))
      as (s' & h' & st1 & tr3 & tab1 & lg3 & X3 & Y1 & Y2 & Y3).
    rewrite (v_bind_eq _ _ _ _ _ _ _ _ _ X3), H4, H5.
    rewrite (v_bind_eq _ _ _ _ _ _ _ _ _ (eq_refl : v_lift (Ok u1) st1 tab1 = Ok (u1, st1, [], tab1, []))).
    rewrite (v_bind_eq _ _ _ _ _ _ _ _ _ (eq_refl : v_lift (Ok u2) st1 tab1 = Ok (u2, st1, [], tab1, []))).
    rewrite (sa_empty_sim _ _ _ Y1), H6.
    rewrite (v_bind_eq _ _ _ _ _ _ _ _ _ (eq_refl : v_lift (Ok u3) st1 tab1 = Ok (u3, st1, [], tab1, []))).
    destruct (mk_raz_tree_sim st1 (Some h') (Some u) t Y2 H) as (h & P & Q & _). destruct (v_mk_eq _ _ tab1 _ _ P) as (_ & tr4 & V4).
    rewrite V4. cbn [bind]. do 5 eexists. split; [reflexivity|]. split; [exact Q|]. now rewrite N1'.
  - apply bind_Ok in H. destruct H as (ft & H2 & H).
    rewrite (v_bind_eq _ _ _ _ _ _ _ _ _ (v_leaf_eq vec st tab)). set (sl := TPut 0%N (Leaf vec : rdata) None None).
    assert (Q5 : rep st sl ft /\ tnames ft = []).
    { destruct (leaf_sim st vec None) as (sl' & X5 & R5). cbn in X5. inv X5. exact (R5 _ H2 eq_refl). }
    destruct (mk_raz_tree_sim st (Some sl) (Some ft) t (proj1 Q5) H) as (h & P & Q & _). destruct (v_mk_eq _ _ tab _ _ P) as (_ & tr4 & V4).
    rewrite V4. cbn [bind]. do 5 eexists. split; [reflexivity|]. split; [exact Q|apply upto_refl].
  - destruct (mk_raz_tree_sim st None None t I H) as (h & P & Q & _). destruct (v_mk_eq _ _ tab _ _ P) as (_ & tr4 & V4).
    rewrite V4. cbn [bind]. do 5 eexists. split; [reflexivity|]. split; [exact Q|apply upto_refl].
Qed.
Lemma cran_tail_sound hist tab : cran (v_from_at_tail eqE eqD) hist tab -> vsound tail_from_stack tab.
Proof. induction 1 as [|h tab k st x y st' tr tab' lg _ IH H]; [apply vsound_none|]. eapply from_tail_sound; eauto. Qed.
Theorem next_from_tail (a : astack E level) (t : raz_tree E M) : from_at_tail a = Ok t -> NoDup (stack_names a) ->
  exists k0, forall k hist tab st s, k0 <= k -> cran (v_from_at_tail eqE eqD) hist tab -> stack_reads st s a ->
  exists h st' tr tab' lg, v_from_at_tail eqE eqD k s st tab = Ok (h, st', tr, tab', lg) /\ tree_reads st' h t /\
    (forall b, fst b <> path \/ ~ In (snd b) (stack_names a) -> st' b = st b) /\
    (stack_reads (without path st) s a -> stack_reads st' s a).
Proof.
  intros H Nd. destruct (from_tail_total a t H (stack_names_uniq _ Nd)) as [k0 K]. exists k0. intros k hist tab st s Hk Hs R.
  destruct (K k Hk st tab s (cran_tail_sound _ _ Hs) (proj1 (stack_reads_rep _ _ _) R)) as (h & st' & tr & tab' & lg & X & Y & U).
  exists h, st', tr, tab', lg. split; [exact X|]. split; [now apply tree_reads_rep|]. split; [now apply stack_names_upto|].
  intros W. apply (stack_reads_below (without path st)); [|exact W].
  intros b c. unfold without. destruct (list_eq_dec name_eq_dec (fst b) path) as [e|D]; [discriminate|].
  intros Hb. rewrite U by auto. exact Hb.
Qed.

(** ** [memo_from(&AtHead)] *)
Lemma head_names k : forall (a : astack E level) lev nm (acc : tree rdata) mx a' l' n' t', head_from_stack k a lev nm acc mx = Ok (a', l', n', t') ->
  sub (oroot n' ++ snames a' ++ tnames t') (oroot nm ++ snames a ++ tnames acc).
Proof.
  induction k as [|k IH]; intros a lev nm acc mx a' l' n' t' H; [discriminate|]. cbn [head_from_stack] in H.
  apply bind_Ok in H. destruct H as (u1 & H1 & H). apply bind_Ok in H. destruct H as (u2 & H2 & H).
  apply bind_Ok in H. destruct H as ([o a1] & H3 & H). apply bind_Ok in H. destruct H as ([vec nl] & H4 & H).
  apply bind_Ok in H. destruct H as (lt & H5 & H). apply bind_Ok in H. destruct H as ([[[sh fl] fn] sm] & H6 & H).
  apply bind_Ok in H. destruct H as (nt & H7 & H).
  apply next_names in H3. apply leaf_names in H5. apply bin_names in H7. rewrite H3.
  assert (S6 : sub (oroot fn ++ snames sh ++ tnames sm) (oroot (as_name a) ++ snames a1)).
  { destruct nl as [lev0|]; [destruct (lev0 <=? lev)%N; [apply IH in H6; rewrite H5 in H6; names|]|]; inv H6; rewrite H5; [names|]. rewrite (snames_new (E := E)). cbn [oroot]. names. }
  destruct fl as [lv|]; [destruct (lv <=? mx)%N; [apply IH in H; rewrite H7 in H; names|]|]; inv H; rewrite H7; [names|]. rewrite (snames_new (E := E)). cbn [oroot]. names.
Qed.

Notation head_good := (from_good head_from_stack).
Lemma v_head_sound k : forall s lev nm h mx, sound_call head_from_stack (s, lev, nm, h, mx) (v_head_from_stack eqE eqD k s lev nm h mx).
Proof.
  induction k as [|k IH]; intros s lev nm h mx st tab r st' tr tab' lg Sd H; [discriminate|]. cbn [v_head_from_stack] in H.
  vstep H u0 st0 tr0 tab0 lg0 H0. inv H0. vstep H u1 st1 tr1 tab1 lg1 H1. apply v_lift_Ok in H1. destruct H1 as (H1 & -> & -> & -> & ->).
  vstep H u2 st2 tr2 tab2 lg2 H2. apply v_lift_Ok in H2. destruct H2 as (H2 & -> & -> & -> & ->).
  vstep H x3 st3 tr3 tab3 lg3 H3. destruct x3 as [o s1]. apply v_next_Ok in H3. destruct H3 as (-> & -> & -> & P3).
  vstep H x4 st4 tr4 tab4 lg4 H4. destruct x4 as [vec nl]. apply v_lift_Ok in H4. destruct H4 as (H4 & -> & -> & -> & ->).
  destruct o as [[vec' nl']|]; [|discriminate]. cbn [unwrap] in H4. injection H4 as -> ->.
  vstep H hl st5 tr5 tab5 lg5 H5. rewrite v_leaf_eq in H5. inv H5.
  vstep H x6 st6 tr6 tab6 lg6 H6. destruct x6 as [[[sh fl] fn] hm].
  vstep H hn st7 tr7 tab7 lg7 H7. apply v_bin_Ok in H7. destruct H7 as (-> & -> & P7).
  assert (G6 : vsound head_from_stack tab6 /\ forall st2, cheld st2 tr6 -> forall fuel a1 lt sh' fl' fn' sm',
    arep st2 s1 a1 -> leaf (rev vec) None = Ok lt ->
    match nl with
    | None => Ok (as_new, None, None, lt)
    | Some lev0 => if (lev0 <=? lev)%N then head_from_stack fuel a1 lev0 (sa_name s) lt lev else Ok (a1, Some lev0, sa_name s, lt)
    end = Ok (sh', fl', fn', sm') -> fl = fl' /\ fn = fn' /\ arep st2 sh sh' /\ rep st2 hm sm').
  { assert (Rl : forall st2 lt, leaf (rev vec) None = Ok lt -> rep st2 (TPut 0%N (Leaf (rev vec) : rdata) None None) lt).
    { intros st2 lt Q. destruct (leaf_sim st2 (rev vec) None) as (sl & X & Y). cbn in X. inv X. now apply Y. }
    destruct nl as [lev0|].
    - destruct (lev0 <=? lev)%N.
      + destruct (memo_call_sound _ _ _ (IH s1 lev0 (sa_name s) (TPut 0%N (Leaf (rev vec)) None None) lev) _ _ _ _ _ _ _ Sd H6) as [Sd6 G].
        split; [exact Sd6|]. intros st2 P fuel a1 lt sh' fl' fn' sm' R1 L Q. cbn in G. exact (G st2 P fuel a1 lt _ _ _ _ R1 (Rl _ _ L) Q).
      + inv H6. split; [exact Sd|]. intros st2 P fuel a1 lt sh' fl' fn' sm' R1 L Q. inv Q. auto.
    - inv H6. split; [exact Sd|]. intros st2 P fuel a1 lt sh' fl' fn' sm' R1 L Q. inv Q. repeat split; auto using new_rep. }
  destruct G6 as [Sd6 G6].
  assert (G8 : vsound head_from_stack tab' /\ forall st2, cheld st2 sr0 -> forall fuel sh' nt a' l' n' t',
    arep st2 sh sh' -> rep st2 hn nt ->
    match fl with
    | None => Ok (as_new, None, None, nt)
    | Some lv => if (lv <=? mx)%N then head_from_stack fuel sh' lv fn nt mx else Ok (sh', Some lv, fn, nt)
    end = Ok (a', l', n', t') -> let '(s', l, n, h') := r in l = l' /\ n = n' /\ arep st2 s' a' /\ rep st2 h' t').
  { destruct fl as [lv|].
    - destruct (lv <=? mx)%N.
      + destruct (memo_call_sound _ _ _ (IH sh lv fn hn mx) _ _ _ _ _ _ _ Sd6 H) as [Sd8 G].
        split; [exact Sd8|]. intros st2 P fuel sh' nt a' l' n' t' R1 R2 Q. specialize (G st2 P). unfold from_good in G.
        destruct r as [[[s' l] n] h']. exact (G fuel sh' nt _ _ _ _ R1 R2 Q).
      + inv H. split; [exact Sd6|]. intros st2 P fuel sh' nt a' l' n' t' R1 R2 Q. inv Q. auto.
    - inv H. split; [exact Sd6|]. intros st2 P fuel sh' nt a' l' n' t' R1 R2 Q. inv Q. repeat split; auto using new_rep. }
  destruct G8 as [Sd8 G8]. split; [exact Sd8|]. clear H H6 IH. intros st2 P. unfold from_good. destruct r as [[[s' l] n] h'].
  intros fuel a acc a' l' n' t' Ra Rh Q. rewrite !cheld_app in P. destruct P as (_ & _ & _ & Q3 & _ & _ & Q6 & Q7 & Q8).
  destruct fuel as [|fuel]; [discriminate|]. cbn [head_from_stack] in Q.
  apply bind_Ok in Q. destruct Q as (v1 & _ & Q). apply bind_Ok in Q. destruct Q as (v2 & _ & Q).
  apply bind_Ok in Q. destruct Q as ([o a1] & A3 & Q). apply bind_Ok in Q. destruct Q as ([vec2 nl2] & A4 & Q).
  apply bind_Ok in Q. destruct Q as (lt & A5 & Q). apply bind_Ok in Q. destruct Q as ([[[sh' fl'] fn'] sm'] & A6 & Q).
  apply bind_Ok in Q. destruct Q as (nt & A7 & Q).
  destruct (sa_next_archive_sim _ _ _ _ _ Ra A3) as (sa1 & X3 & Ra1 & _). rewrite (P3 _ Q3) in X3. injection X3 as <- ->.
  cbn [unwrap] in A4. injection A4 as -> ->. rewrite <- (sa_name_sim _ _ _ Ra) in A6.
  destruct (G6 st2 Q6 fuel a1 lt _ _ _ _ Ra1 A5 A6) as (-> & -> & B1 & B2).
  pose proof (P7 st2 _ _ _ Q7 Rh B2 A7) as B3. exact (G8 st2 Q8 fuel _ _ _ _ _ _ B1 B3 Q).
Qed.

Lemma v_head_total k0 : forall (a : astack E level) lev nm (acc : tree rdata) mx a' l' n' t',
  head_from_stack k0 a lev nm acc mx = Ok (a', l', n', t') -> uniq (oroot nm ++ snames a ++ tnames acc) ->
  forall k st tab s h, k0 <= k -> arep st s a -> rep st h acc -> vsound head_from_stack tab ->
  exists s' h' st' tr tab' lg, v_head_from_stack eqE eqD k s lev nm h mx st tab = Ok ((s', l', n', h'), st', tr, tab', lg) /\
    arep st' s' a' /\ rep st' h' t' /\ upto (oroot nm ++ snames a) st st'.
Proof.
  induction k0 as [|k0 IH]; intros a lev nm acc mx a' l' n' t' H Un k st tab s h K Ra Rt Sd; [discriminate|].
  destruct k as [|k]; [lia|]. cbn [head_from_stack] in H. cbn [v_head_from_stack].
  apply bind_Ok in H. destruct H as (u1 & H1 & H). apply bind_Ok in H. destruct H as (u2 & H2 & H).
  apply bind_Ok in H. destruct H as ([o a1] & H3 & H). apply bind_Ok in H. destruct H as ([vec nl] & H4 & H).
  apply bind_Ok in H. destruct H as (lt & H5 & H). apply bind_Ok in H. destruct H as ([[[sh fl] fn] sm] & H6 & H).
  apply bind_Ok in H. destruct H as (nt & H7 & H).
  rewrite (v_bind_eq _ _ _ _ _ _ _ _ _ (eq_refl : v_enter _ st tab = Ok (tt, st, [], tab, [(s, lev, nm, h, mx)]))).
  rewrite (rep_level _ _ _ Rt), H1, H2.
  rewrite (v_bind_eq _ _ _ _ _ _ _ _ _ (eq_refl : v_lift (Ok u1) st tab = Ok (u1, st, [], tab, []))).
  rewrite (v_bind_eq _ _ _ _ _ _ _ _ _ (eq_refl : v_lift (Ok u2) st tab = Ok (u2, st, [], tab, []))).
  rewrite (sa_name_sim _ _ _ Ra).
  destruct (sa_next_archive_sim _ _ _ _ _ Ra H3) as (sa1 & X3 & Ra1 & N3). destruct (v_next_eq _ _ tab _ _ X3) as (_ & tr3 & V3).
  rewrite (v_bind_eq _ _ _ _ _ _ _ _ _ V3). rewrite H4.
  rewrite (v_bind_eq _ _ _ _ _ _ _ _ _ (eq_refl : v_lift (Ok (vec, nl)) st tab = Ok ((vec, nl), st, [], tab, []))).
  rewrite (v_bind_eq _ _ _ _ _ _ _ _ _ (v_leaf_eq (rev vec) st tab)). set (sl := TPut 0%N (Leaf (rev vec) : rdata) None None).
  assert (Q5 : rep st sl lt /\ tnames lt = []).
  { destruct (leaf_sim st (rev vec) None) as (sl' & X5 & R5). cbn in X5. inv X5. exact (R5 _ H5 eq_refl). }
  destruct Q5 as [Rl Nl].
  assert (N3' : snames a = oroot (as_name a) ++ snames a1) by exact N3. rewrite N3' in Un |- *. clear N3.
  assert (S6 : exists ssh ssm st1 tr tab1 lg, match nl with
      | None => v_ret (sa_new, None, None, sl)
      | Some lev0 => if (lev0 <=? lev)%N then v_from_memo eqE eqD (sa1, lev0, as_name a, sl, lev) (v_head_from_stack eqE eqD k sa1 lev0 (as_name a) sl lev)
                     else v_ret (sa1, Some lev0, as_name a, sl)
      end st tab = Ok ((ssh, fl, fn, ssm), st1, tr, tab1, lg) /\ arep st1 ssh sh /\ rep st1 ssm sm /\
      upto (oroot (as_name a) ++ snames a1) st st1 /\ sub (oroot fn ++ snames sh ++ tnames sm) (oroot (as_name a) ++ snames a1) /\
      vsound head_from_stack tab1).
  { destruct nl as [lev0|].
    - destruct (lev0 <=? lev)%N.
      + destruct (memo_call_total _ sa1 lev0 (as_name a) sl lev (v_head_from_stack eqE eqD k sa1 lev0 (as_name a) sl lev) st tab _ _ _ _ _ _ _ (oroot (as_name a) ++ snames a1) Sd Ra1 Rl H6
          (IH _ _ _ _ _ _ _ _ _ H6 ltac:(rewrite Nl; names) k st tab sa1 sl ltac:(lia) Ra1 Rl Sd))
          as (ssh & ssm & st1 & tr & tab1 & lg & X & Y1 & Y2 & Y3).
        exists ssh, ssm, st1, tr, tab1, lg. split; [exact X|]. repeat (split; [assumption|]).
        split; [pose proof (head_names _ _ _ _ _ _ _ _ _ _ H6) as Z; rewrite Nl in Z; names|].
        exact (proj1 (memo_call_sound _ _ _ (v_head_sound k sa1 lev0 (as_name a) sl lev) _ _ _ _ _ _ _ Sd X)).
      + injection H6 as <- <- <- <-. do 6 eexists. split; [reflexivity|]. rewrite Nl. repeat split; auto; try apply Ra1; names.
    - injection H6 as <- <- <- <-. do 6 eexists. split; [reflexivity|]. rewrite Nl, (snames_new (E := E)). cbn [oroot].
      split; [apply new_rep|]. split; [exact Rl|]. split; [apply upto_refl|]. split; [names|exact Sd]. }
  destruct S6 as (ssh & ssm & st1 & tr6 & tab1 & lg6 & X6 & Rsh & Rsm & U6 & S6 & Sd1).
  rewrite (v_bind_eq _ _ _ _ _ _ _ _ _ X6). clear X6.
  assert (Rt1 : rep st1 h acc) by (apply (rep_frame _ _ _ _ _ U6); [names|exact Rt]).
  destruct (bin_sim st1 h acc ssm sm lev nm nt Rt1 Rsm ltac:(names) H7) as (sn & st2 & X7 & Rn & U7 & Nn & Ln).
  destruct (v_bin_eq _ _ _ _ _ tab1 _ _ X7) as (tr7 & V7). rewrite (v_bind_eq _ _ _ _ _ _ _ _ _ V7).
  assert (Rsh2 : arep st2 ssh sh) by (apply (arep_frame _ _ _ _ _ U7); [fold (snames sh); names|exact Rsh]).
  assert (U2 : upto (oroot nm ++ oroot (as_name a) ++ snames a1) st st2).
  { apply (upto_trans _ _ st1); [apply (upto_sub (oroot (as_name a) ++ snames a1)); [names|exact U6]|apply (upto_sub (oroot nm)); [names|exact U7]]. }
  destruct fl as [lv|].
  - destruct (lv <=? mx)%N.
    + destruct (memo_call_total _ ssh lv fn sn mx (v_head_from_stack eqE eqD k ssh lv fn sn mx) st2 tab1 _ _ _ _ _ _ _ (oroot fn ++ snames sh) Sd1 Rsh2 Rn H
        (IH _ _ _ _ _ _ _ _ _ H ltac:(rewrite Nn; names) k st2 tab1 ssh sn ltac:(lia) Rsh2 Rn Sd1))
        as (s' & h' & st3 & tr & tab3 & lg & X & Y1 & Y2 & Y3).
      rewrite X. cbn [bind]. do 6 eexists. split; [reflexivity|]. split; [exact Y1|]. split; [exact Y2|].
      apply (upto_trans _ _ st2); [exact U2|]. apply (upto_sub (oroot fn ++ snames sh)); [names|exact Y3].
    + injection H as <- <- <- <-. cbn [v_ret bind]. do 6 eexists. split; [reflexivity|]. auto.
  - injection H as <- <- <- <-. cbn [v_ret bind]. do 6 eexists. split; [reflexivity|]. auto using new_rep.
Qed.

Lemma from_head_sound k s st tab x st' tr tab' lg : vsound head_from_stack tab ->
  v_from_at_head eqE eqD k s st tab = Ok (x, st', tr, tab', lg) -> vsound head_from_stack tab'.
Proof.
  intros Sd H. unfold v_from_at_head in H. vstep H x1 st1 tr1 tab1 lg1 H1. destruct x1 as [o s1].
  apply v_next_Ok in H1. destruct H1 as (-> & -> & -> & _). destruct o as [[vec [lev|]]|].
  - vstep H hl st5 tr5 tab5 lg5 H5. rewrite v_leaf_eq in H5. inv H5.
    vstep H x6 st6 tr6 tab6 lg6 H6. destruct x6 as [[[s2 l] n] h2].
    vstep H u1 st7 tr7 tab7 lg7 H7. apply v_lift_Ok in H7. destruct H7 as (_ & -> & -> & -> & ->).
    vstep H u2 st8 tr8 tab8 lg8 H8. apply v_lift_Ok in H8. destruct H8 as (_ & -> & -> & -> & ->).
    vstep H u3 st9 tr9 tab9 lg9 H9. apply v_lift_Ok in H9. destruct H9 as (_ & -> & -> & -> & ->).
    apply v_mk_Ok in H. destruct H as (_ & -> & _).
    exact (proj1 (memo_call_sound _ _ _ (v_head_sound k _ _ _ _ _) _ _ _ _ _ _ _ Sd H6)).
  - vstep H hl st5 tr5 tab5 lg5 H5. rewrite v_leaf_eq in H5. inv H5. apply v_mk_Ok in H. destruct H as (_ & -> & _). exact Sd.
  - apply v_mk_Ok in H. destruct H as (_ & -> & _). exact Sd.
Qed.
Lemma from_head_total (a : astack E level) (t : raz_tree E M) : from_at_head a = Ok t -> uniq (snames a) ->
  ev (fun k => forall st tab s, vsound head_from_stack tab -> arep st s a ->
    exists h st' tr tab' lg, v_from_at_head eqE eqD k s st tab = Ok (h, st', tr, tab', lg) /\ rtrep st' h t /\ upto (snames a) st st').
Proof.
  intros H Un. exists (S (S (archives a))). intros k K st tab s Sd Ra. unfold from_at_head in H. unfold v_from_at_head.
  apply bind_Ok in H. destruct H as ([o a1] & H1 & H).
  destruct (sa_next_archive_sim _ _ _ _ _ Ra H1) as (sa1 & X1 & Ra1 & N1). destruct (v_next_eq _ _ tab _ _ X1) as (_ & tr1 & V1).
  assert (N1' : snames a = oroot (as_name a) ++ snames a1) by exact N1. clear N1.
  rewrite (v_bind_eq _ _ _ _ _ _ _ _ _ V1). rewrite (sa_name_sim _ _ _ Ra).
  destruct o as [[vec [lev|]]|].
  - apply bind_Ok in H. destruct H as (ft & H2 & H). apply bind_Ok in H. destruct H as ([[[s2 l] n] u] & H3 & H).
    apply bind_Ok in H. destruct H as (u1 & H4 & H). apply bind_Ok in H. destruct H as (u2 & H5 & H).
    apply bind_Ok in H. destruct H as (u3 & H6 & H).
    rewrite (v_bind_eq _ _ _ _ _ _ _ _ _ (v_leaf_eq (rev vec) st tab)). set (sl := TPut 0%N (Leaf (rev vec) : rdata) None None).
    assert (Q5 : rep st sl ft /\ tnames ft = []).
    { destruct (leaf_sim st (rev vec) None) as (sl' & X5 & R5). cbn in X5. inv X5. exact (R5 _ H2 eq_refl). }
    destruct Q5 as [Rl Nl].
    destruct (memo_call_total _ sa1 lev (as_name a) sl u32_max (v_head_from_stack eqE eqD k sa1 lev (as_name a) sl u32_max) st tab _ _ _ _ _ _ _ (oroot (as_name a) ++ snames a1) Sd Ra1 Rl H3
      (v_head_total _ _ _ _ _ _ _ _ _ _ H3 ltac:(rewrite Nl; rewrite N1' in Un; names) k st tab sa1 sl K Ra1 Rl Sd))
      as (s' & h' & st1 & tr3 & tab1 & lg3 & X3 & Y1 & Y2 & Y3).
    rewrite (v_bind_eq _ _ _ _ _ _ _ _ _ X3), H4, H5.
    rewrite (v_bind_eq _ _ _ _ _ _ _ _ _ (eq_refl : v_lift (Ok u1) st1 tab1 = Ok (u1, st1, [], tab1, []))).
    rewrite (v_bind_eq _ _ _ _ _ _ _ _ _ (eq_refl : v_lift (Ok u2) st1 tab1 = Ok (u2, st1, [], tab1, []))).
    rewrite (sa_empty_sim _ _ _ Y1), H6.
    rewrite (v_bind_eq _ _ _ _ _ _ _ _ _ (eq_refl : v_lift (Ok u3) st1 tab1 = Ok (u3, st1, [], tab1, []))).
    destruct (mk_raz_tree_sim st1 (Some h') (Some u) t Y2 H) as (h & P & Q & _). destruct (v_mk_eq _ _ tab1 _ _ P) as (_ & tr4 & V4).
    rewrite V4. cbn [bind]. do 5 eexists. split; [reflexivity|]. split; [exact Q|]. now rewrite N1'.
  - apply bind_Ok in H. destruct H as (ft & H2 & H).
    rewrite (v_bind_eq _ _ _ _ _ _ _ _ _ (v_leaf_eq (rev vec) st tab)). set (sl := TPut 0%N (Leaf (rev vec) : rdata) None None).
    assert (Q5 : rep st sl ft /\ tnames ft = []).
    { destruct (leaf_sim st (rev vec) None) as (sl' & X5 & R5). cbn in X5. inv X5. exact (R5 _ H2 eq_refl). }
    destruct (mk_raz_tree_sim st (Some sl) (Some ft) t (proj1 Q5) H) as (h & P & Q & _). destruct (v_mk_eq _ _ tab _ _ P) as (_ & tr4 & V4).
    rewrite V4. cbn [bind]. do 5 eexists. split; [reflexivity|]. split; [exact Q|apply upto_refl].
  - destruct (mk_raz_tree_sim st None None t I H) as (h & P & Q & _). destruct (v_mk_eq _ _ tab _ _ P) as (_ & tr4 & V4).
    rewrite V4. cbn [bind]. do 5 eexists. split; [reflexivity|]. split; [exact Q|apply upto_refl].
Qed.
Lemma cran_head_sound hist tab : cran (v_from_at_head eqE eqD) hist tab -> vsound head_from_stack tab.
Proof. induction 1 as [|h tab k st x y st' tr tab' lg _ IH H]; [apply vsound_none|]. eapply from_head_sound; eauto. Qed.
Theorem next_from_head (a : astack E level) (t : raz_tree E M) : from_at_head a = Ok t -> NoDup (stack_names a) ->
  exists k0, forall k hist tab st s, k0 <= k -> cran (v_from_at_head eqE eqD) hist tab -> stack_reads st s a ->
  exists h st' tr tab' lg, v_from_at_head eqE eqD k s st tab = Ok (h, st', tr, tab', lg) /\ tree_reads st' h t /\
    (forall b, fst b <> path \/ ~ In (snd b) (stack_names a) -> st' b = st b) /\
    (stack_reads (without path st) s a -> stack_reads st' s a).
Proof.
  intros H Nd. destruct (from_head_total a t H (stack_names_uniq _ Nd)) as [k0 K]. exists k0. intros k hist tab st s Hk Hs R.
  destruct (K k Hk st tab s (cran_head_sound _ _ Hs) (proj1 (stack_reads_rep _ _ _) R)) as (h & st' & tr & tab' & lg & X & Y & U).
  exists h, st', tr, tab', lg. split; [exact X|]. split; [now apply tree_reads_rep|]. split; [now apply stack_names_upto|].
  intros W. apply (stack_reads_below (without path st)); [|exact W].
  intros b c. unfold without. destruct (list_eq_dec name_eq_dec (fst b) path) as [e|D]; [discriminate|].
  intros Hb. rewrite U by auto. exact Hb.
Qed.
End Raz.
