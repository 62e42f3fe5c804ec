(** * What a rerun of the memoised [memo_from] over the store enters and writes. *)

From Coq Require Import Permutation.
From Verif Require Import Base BaseFacts Spec SpecRaz StackModel AStackModel StackProofs LevelTreeModel TreeSpec TreeProofs TreeCursorModel
  RazMetaModel RazModel RazView RazProofs RazFrom MemoModel MemoSpec MemoProofs MemoCost MemoHistory MemoTwo MemoFromModel MemoFromSpec MemoFrom MemoFromWork MemoFromUse StoreModel StoreSpec
  StoreScripts StoreProofs StoreRaz StoreHistory StoreNs StoreMapModel StoreMapSpec StoreMapProofs IncModel IncSpec IncProofs IncCost IncFromModel
  IncFromSpec IncFromProofs.

(** ** Handles and cells of stacks in [q] and of trees in the current namespace *)
Section Canon.
Context {E M : Type} {RM : RazMeta E M} (eqE : forall x y : E, {x = y} + {x <> y})
  (eqD : forall x y : tree_data E M, {x = y} + {x <> y}) (q : list name) {Nsp : here}.
Notation rdata := (tree_data E M).
Notation rtree := (tree rdata).
Notation elem := (level * list E)%type.
Notation rstore := (store elem rdata).
Notation vkey := (@vkey E M).
Notation vres := (@s_from_result E M).
Notation rtab := (ctab elem rdata vkey vres).
Notation rseen := (cseen elem rdata).
Notation key := (@from_key E M).
Notation result := (@from_result E M).
Implicit Types (st : rstore) (tab : rtab) (tr : list rseen) (a : astack E level) (t : rtree).

Definition has st tr : Prop := forall b c, In (b, c) tr -> st b = Some c.
Lemma has_cheld st tr : cheld (eqL eqE) eqD st tr <-> has st tr.
Proof.
  unfold cheld. rewrite forallb_forall. split.
  - intros H b c I. exact (proj1 (cholds_eq _ _ _ _) (H _ I)).
  - intros H [b c] I. apply cholds_eq. exact (H b c I).
Qed.
Lemma has_incl st tr tr' : incl tr' tr -> has st tr -> has st tr'.
Proof. intros I H b c J. apply H, I, J. Qed.
Lemma has_app st tr tr' : has st (tr ++ tr') <-> has st tr /\ has st tr'.
Proof.
  split.
  - intros H. split; intros b c I; apply H, in_or_app; auto.
  - intros [H H'] b c I. apply in_app_or in I. destruct I; auto.
Qed.
Lemma has_nil st : has st [].
Proof. intros b c []. Qed.
Lemma has_one st b c : has st [(b, c)] <-> st b = Some c.
Proof. split; [intros H; apply H; now left|]. intros H b' c' [Q|[]]. now inv Q. Qed.

Fixpoint hhandle (h : head elem) : shead elem :=
  match h with
  | Head (Some n) _ _ => HCell (q, n)
  | Head None e nx => HPut e match nx with None => None | Some x => Some (hhandle x) end
  end.
Definition ohhandle (o : option (head elem)) : option (shead elem) := match o with None => None | Some x => Some (hhandle x) end.
Fixpoint hcells (h : head elem) : list rseen :=
  match h with
  | Head nm e nx =>
      match nm with None => [] | Some n => [((q, n), CBody e (ohhandle nx))] end ++ match nx with None => [] | Some x => hcells x end
  end.
Definition ohcells (o : option (head elem)) : list rseen := match o with None => [] | Some x => hcells x end.
Definition shandle a : sastack E level := SAStack (current a) (ohhandle (archived a)).
Definition scells a : list rseen := ohcells (archived a).
Definition asnode (x : @seen rdata) : rseen := (fst x, CNode (fst (fst (snd x))) (snd (fst (snd x))) (snd (snd x))).
Definition tcells t : list rseen := map asnode (cells path t).
Notation thandle := (handle (A := rdata) path).
Definition otcells (o : option rtree) : list rseen := match o with None => [] | Some x => tcells x end.
Lemma tcells_eq lv nm (d : rdata) l r : tcells (Node lv nm d l r) =
  match nm with None => [] | Some n => [((path, n), CNode d (ohandle path l) (ohandle path r))] end ++ otcells l ++ otcells r.
Proof. unfold tcells. rewrite cells_eq, !map_app. f_equal; [now destruct nm|]. f_equal; [now destruct l|now destruct r]. Qed.
Lemma tcells_leaf v : tcells (leaf_of v) = [].
Proof. reflexivity. Qed.
Lemma thandle_leaf v : thandle (leaf_of v) = TPut 0%N (Leaf v) None None.
Proof. reflexivity. Qed.
Lemma tcells_names t : forall b c, In (b, c) (tcells t) -> fst b = path /\ In (snd b) (tnames t).
Proof.
  induction t as [lv nm d l r IHl IHr] using tree_induction. intros b c. rewrite tcells_eq, tnames_eq. cbn [t_name t_left t_right].
  assert (X : forall o, optP (fun t => forall b c, In (b, c) (tcells t) -> fst b = path /\ In (snd b) (tnames t)) o ->
    In (b, c) (otcells o) -> fst b = path /\ In (snd b) (otnames o)).
  { intros [x|] I H; [exact (I _ _ H)|contradiction]. }
  rewrite !in_app_iff. intros [H|[H|H]].
  - destruct nm as [n|]; [|contradiction]. destruct H as [H|[]]. inv H. split; [reflexivity|]. left. now left.
  - apply (X l IHl) in H. tauto.
  - apply (X r IHr) in H. tauto.
Qed.
Lemma tcells_In t n : In n (tnames t) -> exists c, In ((path, n), c) (tcells t).
Proof.
  induction t as [lv nm d l r IHl IHr] using tree_induction. rewrite tcells_eq, tnames_eq. cbn [t_name t_left t_right].
  assert (X : forall o, optP (fun t => In n (tnames t) -> exists c, In ((path, n), c) (tcells t)) o ->
    In n (otnames o) -> exists c, In ((path, n), c) (otcells o)).
  { intros [x|] I H; [exact (I H)|contradiction]. }
  rewrite !in_app_iff. intros [H|[H|H]].
  - destruct nm as [m|]; [|contradiction]. destruct H as [->|[]]. eexists. rewrite !in_app_iff. left. now left.
  - apply (X l IHl) in H. destruct H as (c & H). exists c. rewrite !in_app_iff. tauto.
  - apply (X r IHr) in H. destruct H as (c & H). exists c. rewrite !in_app_iff. tauto.
Qed.
Lemma tcells_uniq t : uniq (tnames t) -> forall b c c', In (b, c) (tcells t) -> In (b, c') (tcells t) -> c = c'.
Proof.
  induction t as [lv nm d l r IHl IHr] using tree_induction. intros U b c c'. rewrite tcells_eq. rewrite tnames_eq in U.
  cbn [t_name t_left t_right] in U.
  assert (X : forall o, optP (fun t => uniq (tnames t) -> forall b c c', In (b, c) (tcells t) -> In (b, c') (tcells t) -> c = c') o ->
    uniq (otnames o) -> In (b, c) (otcells o) -> In (b, c') (otcells o) -> c = c').
  { intros [x|] I V H H'; [exact (I V b c c' H H')|contradiction]. }
  assert (Y : forall o c, In (b, c) (otcells o) -> 0 < cnt (snd b) (otnames o)).
  { intros [x|] c0 H; [|contradiction]. apply tcells_names in H. apply cnt_In. tauto. }
  assert (Z : forall c : cell_data elem rdata, In (b, c) (match nm with None => [] | Some n => [((path, n), CNode d (ohandle path l) (ohandle path r))] end) ->
    c = CNode d (ohandle path l) (ohandle path r) /\ 0 < cnt (snd b) (oroot nm)).
  { intros c0 H. destruct nm as [n|]; [|contradiction]. destruct H as [H|[]]. inv H. split; [reflexivity|]. cbn [oroot snd]. apply cnt_In. now left. }
  pose proof (U (snd b)) as Ub. rewrite !cnt_app in Ub.
  rewrite !in_app_iff. intros [H|[H|H]] [H'|[H'|H']].
  - apply Z in H, H'. destruct H, H'. congruence.
  - apply Z in H. apply Y in H'. lia.
  - apply Z in H. apply Y in H'. lia.
  - apply Z in H'. apply Y in H. lia.
  - apply (X l IHl); auto. names.
  - apply Y in H, H'. lia.
  - apply Z in H'. apply Y in H. lia.
  - apply Y in H, H'. lia.
  - apply (X r IHr); auto. names.
Qed.
Lemma scells_names a : forall b c, In (b, c) (scells a) -> fst b = q.
Proof.
  unfold scells. destruct (archived a) as [h|]; [|contradiction]. cbn [ohcells].
  induction h as [nm e|nm e h IH] using head_induction; intros b c; cbn [hcells]; rewrite in_app_iff.
  - intros [H|[]]. destruct nm as [n|]; [|contradiction]. destruct H as [H|[]]. now inv H.
  - intros [H|H]; [|exact (IH _ _ H)]. destruct nm as [n|]; [|contradiction]. destruct H as [H|[]]. now inv H.
Qed.
Lemma stack_homed st s a : arep (within q st) s a -> s = shandle a /\ has st (scells a).
Proof.
  intros [Hc Ha]. destruct s as [c o], a as [c' o']. cbn [sa_current current sa_archived archived] in *. subst c'.
  assert (X : forall (h : head elem) s, hrep (within q st) s h -> s = hhandle h /\ has st (hcells h)).
  { induction h as [nm e|nm e h IH] using head_induction; intros s H; apply hrep_eq in H; cbn [head_name head_peek head_pull] in H;
      destruct H as (Hn & sn & Lk & Hs).
    - destruct sn; [contradiction|]. destruct s as [e' n'|[p n]]; cbn [sh_name snd] in Hn; subst nm.
      + cbn in Lk. inv Lk. split; [reflexivity|apply has_nil].
      + cbn [head_look] in Lk. unfold within in Lk. cbn [fst] in Lk. destruct (list_eq_dec name_eq_dec p q) as [->|]; [|discriminate].
        split; [reflexivity|]. cbn [hcells ohhandle]. rewrite app_nil_r. apply has_one. destruct (st (q, n)) as [[e' n'|]|]; try discriminate. now inv Lk.
    - destruct sn as [s1|]; [|contradiction]. cbn [ohrep] in Hs. destruct (IH _ Hs) as [-> Hc]. destruct s as [e' n'|[p n]]; cbn [sh_name snd] in Hn; subst nm.
      + cbn in Lk. inv Lk. split; [reflexivity|exact Hc].
      + cbn [head_look] in Lk. unfold within in Lk. cbn [fst] in Lk. destruct (list_eq_dec name_eq_dec p q) as [->|]; [|discriminate].
        split; [reflexivity|]. cbn [hcells ohhandle]. apply has_app. split; [|exact Hc]. apply has_one. destruct (st (q, n)) as [[e' n'|]|]; try discriminate. now inv Lk. }
  unfold shandle, scells. cbn [current archived]. destruct o as [s|], o' as [h|]; cbn [ohrep] in Ha; try contradiction.
  - destruct (X _ _ Ha) as [-> H]. auto.
  - split; [reflexivity|apply has_nil].
Qed.

(** ** Steps *)
Lemma shandle_name a : sa_name (shandle a) = as_name a.
Proof. unfold sa_name, shandle, as_name. cbn [sa_archived]. destruct (archived a) as [[[n|] e nx]|]; reflexivity. Qed.
Lemma next_step s st tab x st' tr tab' lg : v_next_archive s st tab = Ok (x, st', tr, tab', lg) ->
  st' = st /\ tab' = tab /\ lg = [] /\ has st tr /\
  forall st2 a, has st2 tr -> has st2 (scells a) -> shandle a = s ->
    exists o a1, as_next_archive a = Ok (o, a1) /\ x = (o, shandle a1) /\ incl tr (scells a) /\ incl (scells a1) (scells a).
Proof.
  unfold v_next_archive, as_next_archive. intros H.
  assert (Em : forall a, shandle a = s -> sa_is_empty s = as_is_empty a /\ ss_is_empty (sa_archived s) = stack_is_empty (archived a)).
  { intros a <-. unfold sa_is_empty, as_is_empty. cbn [sa_current sa_archived shandle]. destruct (archived a) as [[[n|] e nx]|]; auto. }
  destruct (sa_is_empty s) eqn:E1.
  { inv H. repeat (split; [reflexivity || apply has_nil|]). intros st2 a _ Hs Q. destruct (Em a Q) as [<- _].
    exists None, a. rewrite Q. repeat (split; [reflexivity|]). auto using incl_refl, incl_nil_l. }
  destruct (ss_is_empty (sa_archived s)) eqn:E2.
  { inv H. repeat (split; [reflexivity || apply has_nil|]). intros st2 a _ Hs Q. destruct (Em a Q) as [<- <-].
    exists (Some (current a, None)), as_new. subst s. repeat (split; [reflexivity|]). split; apply incl_nil_l. }
  destruct (sa_archived s) as [h|] eqn:Eh; [|discriminate].
  vstep H o st1 tr1 tab1 lg1 H1. vstep H mv st2 tr2 tab2 lg2 H2. destruct mv as [m v].
  vstep H o2 st3 tr3 tab3 lg3 H3. vstep H rest st4 tr4 tab4 lg4 H4. inv H.
  cbn [v_ss_peek v_ss_pull] in H1, H3.
  vstep H1 x1 st5 tr5 tab5 lg5 H1'. destruct x1 as [e n]. inv H1.
  apply v_lift_Ok in H2. destruct H2 as (H2 & -> & -> & -> & ->). cbn [unwrap] in H2. inv H2.
  vstep H3 x1 st6 tr6 tab6 lg6 H3'. destruct x1 as [e n']. inv H3.
  apply v_lift_Ok in H4. destruct H4 as (H4 & -> & -> & -> & ->). cbn [unwrap] in H4. inv H4.
  unfold v_force_head in H1', H3'. apply bind_Ok in H1', H3'.
  destruct H1' as (x1 & L1 & Z1). destruct H3' as (x2 & L2 & Z2). inv Z1. inv Z2. rewrite L1 in L2. inv L2.
  repeat (split; [reflexivity|]). rewrite !app_nil_r. cbn [app fst snd].
  assert (Hs : has st3 match h with HPut _ _ => [] | HCell b => [(b, CBody (m, v) rest)] end).
  { destruct h as [e0 n0|b]; [apply has_nil|]. apply has_one. cbn [head_look] in L1. destruct (st3 b) as [[e0 n0|]|]; try discriminate. now inv L1. }
  split; [apply has_app; auto|]. intros st2 a Ht Ha Q. apply has_app in Ht. destruct Ht as [Ht _]. destruct (Em a Q) as [<- <-].
  assert (Qc : sa_current s = current a) by now rewrite <- Q. assert (Qh : ohhandle (archived a) = Some h) by (rewrite <- Q in Eh; exact Eh).
  unfold scells in *. destruct (archived a) as [[nm [m' v'] nx]|]; [|discriminate]. cbn [ohhandle ohcells hcells stack_peek stack_pull option_map head_peek head_pull unwrap bind] in *.
  assert (X : (m', v') = (m, v) /\ ohhandle nx = rest /\ @incl rseen match h with HPut _ _ => [] | HCell b => [(b, CBody (m, v) rest)] end
     (match nm with None => [] | Some n => [((q, n), CBody (m', v') (ohhandle nx))] end)).
  { destruct nm as [n|]; cbn [hhandle] in Qh; inv Qh.
    - apply has_one in Ht. apply has_app in Ha. destruct Ha as [Ha _]. apply has_one in Ha. rewrite Ht in Ha. injection Ha as -> -> <-. auto using incl_refl.
    - cbn in L1. inv L1. split; [reflexivity|]. split; [|apply incl_refl]. reflexivity. }
  destruct X as (Em' & En & In'). inv Em'. exists (Some (current a, Some m)), (AStack v nx). rewrite Qc.
  split; [reflexivity|]. split; [reflexivity|]. cbn [archived].
  split; [apply incl_app; apply (incl_appl _ In')|]. intros z Hz. apply in_or_app. now right.
Qed.
Lemma peek_step s st tab d st' tr tab' lg : v_peek s st tab = Ok (d, st', tr, tab', lg) ->
  st' = st /\ tab' = tab /\ lg = [] /\ has st tr /\
  forall st2 t, has st2 tr -> has st2 (tcells t) -> thandle t = s -> d = t_peek t /\ incl tr (tcells t).
Proof.
  unfold v_peek. intros H. vstep H x st1 tr1 tab1 lg1 H1. destruct x as [[d0 l0] r0]. inv H. unfold v_force_tree in H1.
  apply bind_Ok in H1. destruct H1 as (y & H1 & H). inv H. repeat (split; [reflexivity|]). rewrite app_nil_r. cbn [fst snd].
  split.
  - destruct s as [lv e l r|lv b]; [apply has_nil|]. apply has_one. cbn [tree_look] in H1. destruct (st' b) as [[|e l r]|]; try discriminate. now inv H1.
  - intros st2 t Ht Hs Q. destruct t as [lv nm d' l r]. rewrite tcells_eq in *. destruct nm as [n|]; cbn [handle] in Q; subst s; cbn [tree_look] in *.
    + apply has_one in Ht. apply has_app in Hs. destruct Hs as [Hs _]. apply has_one in Hs. rewrite Ht in Hs. injection Hs as -> -> ->.
      split; [reflexivity|]. intros z [<-|[]]. apply in_or_app. left. now left.
    + inv H1. split; [reflexivity|]. apply incl_nil_l.
Qed.
Lemma tcells_rep st t : has st (tcells t) -> rep (within path st) (thandle t) t.
Proof.
  induction t as [lv nm d l r IHl IHr] using tree_induction. rewrite tcells_eq. intros H. apply has_app in H. destruct H as [H H2].
  apply has_app in H2. destruct H2 as [Hl Hr]. apply rep_eq. cbn [t_level t_name t_peek t_left t_right].
  assert (G : forall o, optP (fun t => has st (tcells t) -> rep (within path st) (thandle t) t) o -> has st (otcells o) -> orep (within path st) (ohandle path o) o).
  { intros [x|] I X; [exact (I X)|exact I]. }
  specialize (G l IHl Hl) as Gl. specialize (G r IHr Hr) as Gr.
  split; [now destruct nm|]. split; [now destruct nm|]. exists (ohandle path l), (ohandle path r). split; [|auto].
  destruct nm as [n|]; [|reflexivity]. cbn [handle tree_look]. apply has_one in H. unfold within. cbn [fst].
  destruct (list_eq_dec name_eq_dec path path) as [_|D]; [|now elim D]. now rewrite H.
Qed.
Lemma mk_step (o : option rtree) (rt : raz_tree E M) st tab x st' tr tab' lg : v_mk_raz_tree (ohandle path o) st tab = Ok (x, st', tr, tab', lg) ->
  has st (otcells o) -> mk_raz_tree o = Ok rt -> rtrep (within path st') x rt.
Proof.
  intros H Hs Mk. pose proof (v_mk_Ok eqE eqD _ _ _ _ _ _ _ _ H) as (-> & _ & _). unfold v_mk_raz_tree in H. vstep H m st1 tr1 tab1 lg1 H1. inv H.
  unfold mk_raz_tree in Mk. destruct o as [t|]; cbn [ohandle v_treetop_meta treetop_meta] in H1, Mk.
  - vstep H1 d st2 tr2 tab2 lg2 H2. apply peek_step in H2. destruct H2 as (-> & -> & -> & Ht & P). destruct (P st t Ht Hs eq_refl) as [-> _].
    destruct (t_peek t); cbn [bind] in Mk; try discriminate; inv H1; inv Mk; (split; [reflexivity|exact (tcells_rep st t Hs)]).
  - inv H1. inv Mk. split; [reflexivity|exact I].
Qed.
Lemma bin_step h1 lv nm h2 st tab h st' tr tab' lg : v_bin h1 lv nm h2 st tab = Ok (h, st', tr, tab', lg) ->
  tab' = tab /\ lg = [] /\ upto (oroot nm) st st' /\
  (forall t1 t2, thandle t1 = h1 -> thandle t2 = h2 -> has st (tcells t1) -> has st (tcells t2) ->
     apart (oroot nm) (tnames t1 ++ tnames t2) -> has st' tr) /\
  forall st2 t1 t2 t, has st2 tr -> has st2 (tcells t1) -> has st2 (tcells t2) -> thandle t1 = h1 -> thandle t2 = h2 ->
    bin t1 lv nm t2 = Ok t -> h = thandle t /\ has st2 (tcells t) /\ incl tr (tcells t).
Proof.
  unfold v_bin. intros H. vstep H d1 st1 tr1 tab1 lg1 H1. vstep H d2 st2 tr2 tab2 lg2 H2. vstep H td st3 tr3 tab3 lg3 H3.
  vstep H o st4 tr4 tab4 lg4 H4. apply peek_step in H1. destruct H1 as (-> & -> & -> & T1 & P1).
  apply peek_step in H2. destruct H2 as (-> & -> & -> & T2 & P2). apply v_lift_Ok in H3. destruct H3 as (H3 & -> & -> & -> & ->).
  apply v_lift_Ok in H. destruct H as (H & -> & -> & -> & ->). destruct o as [s5|]; inv H.
  assert (Q4 : tab4 = tab /\ lg4 = [] /\ upto (oroot nm) st st4 /\ h = (match nm with Some n => TCell lv (path, n) | None => TPut lv td (Some h1) (Some h2) end) /\
    tr4 = (match nm with Some n => [((path, n), CNode td (Some h1) (Some h2))] | None => [] end) /\ has st4 tr4).
  { unfold v_tree_new in H4. destruct nm as [n|]; inv H4.
    - repeat (split; [reflexivity|]). split; [apply write_upto|]. repeat (split; [reflexivity|]). apply has_one. now rewrite write_same.
    - repeat (split; [reflexivity|]). split; [apply upto_refl|]. repeat (split; [reflexivity|]). apply has_nil. }
  destruct Q4 as (-> & -> & U & -> & -> & T4). repeat (split; [reflexivity|]). split; [exact U|].
  rewrite !app_nil_r. cbn [app]. split.
  - intros t1 t2 Q1 Q2 C1 C2 Ap. destruct (P1 st t1 T1 C1 Q1) as [_ I1]. destruct (P2 st t2 T2 C2 Q2) as [_ I2].
    assert (G : forall t tr, has st tr -> incl tr (tcells t) -> apart (oroot nm) (tnames t) -> has st4 tr).
    { intros t tr0 Ht It Ap' b c I. specialize (Ht _ _ I). rewrite U; [exact Ht|right]. specialize (It _ I). apply tcells_names in It.
      destruct It as [_ It]. apply cnt_In in It. specialize (Ap' (snd b)). lia. }
    apply has_app. split; [apply (G t1); auto; names|]. apply has_app. split; [apply (G t2); auto; names|exact T4].
  - intros st2 t1 t2 t Ht C1 C2 Q1 Q2 B. apply has_app in Ht. destruct Ht as [Ht1 Ht]. apply has_app in Ht. destruct Ht as [Ht2 Ht3].
    destruct (P1 st2 t1 Ht1 C1 Q1) as [-> I1]. destruct (P2 st2 t2 Ht2 C2 Q2) as [-> I2].
    unfold bin in B. apply bind_Ok in B. destruct B as (d & Hd & B). apply new_Ok in B. subst t. rewrite H3 in Hd. injection Hd as <-.
    rewrite tcells_eq. cbn [otcells ohandle]. rewrite Q1, Q2. split; [destruct nm; cbn [handle]; rewrite ?Q1, ?Q2; reflexivity|].
    split; [rewrite !has_app; auto|].
    apply incl_app; [apply incl_appr, incl_appl, I1|apply incl_app; [apply incl_appr, incl_appr, I2|apply incl_appl, incl_refl]].
Qed.

(** ** Both builders *)
Section Side.
Context (c1 c2 : level -> level -> bool) (g : list E -> list E) (flip : bool).
Definition side_chk (acc : rtree) (fl mx : level) : res unit :=
  do _ <- assert "from_stack: accum level" (c1 (t_level acc) fl); assert "from_stack: max level" (c2 fl mx).
Definition side_lf (v : list E) : rtree := leaf_of (g v).
Definition side_mkb (small : rtree) fl fn (acc : rtree) : res rtree := if flip then bin acc fl fn small else bin small fl fn acc.
Notation first := (first c2 side_chk side_lf).
Notation cont := (cont c2 side_mkb).
Notation pure := (pure first cont mk).
Notation all_calls := (all_calls first cont mk).
Notation side_vm := (vm elem rdata vkey vres).

Fixpoint v_side (fuel : nat) (s : sastack E level) (first_level : level)
    (first_name : option name) (accum : stree rdata) (max_level : level) : side_vm vres :=
  match fuel with
  | O => v_lift Fuel
  | S fuel =>
      trk _ <- v_enter (s, first_level, first_name, accum, max_level);
      trk _ <- v_lift (assert "from_stack: accum level" (c1 (st_level accum) first_level));
      trk _ <- v_lift (assert "from_stack: max level" (c2 first_level max_level));
      let next_name := sa_name s in
      trk ' (o, s) <- v_next_archive s;
      trk ' (vec, next_level) <- v_lift (unwrap "stack was unexpectedly empty" o);
      trk leaf_tree <- v_leaf (g vec) None;
      trk ' (shorter, final_level, final_name, small_tree) <-
        match next_level with
        | None => v_ret (sa_new, None, None, leaf_tree)
        | Some lev =>
            if c2 lev first_level
            then v_from_memo eqE eqD (s, lev, next_name, leaf_tree, first_level)
                   (v_side fuel s lev next_name leaf_tree first_level)
            else v_ret (s, Some lev, next_name, leaf_tree)
        end;
      trk new_tree <- (if flip then v_bin accum first_level first_name small_tree else v_bin small_tree first_level first_name accum);
      match final_level with
      | None => v_ret (sa_new, None, None, new_tree)
      | Some lev =>
          if c2 lev max_level
          then v_from_memo eqE eqD (shorter, lev, final_name, new_tree, max_level)
                 (v_side fuel shorter lev final_name new_tree max_level)
          else v_ret (shorter, Some lev, final_name, new_tree)
      end
  end.

Definition r_stack (r : result) : astack E level := fst (fst (fst r)).
Definition r_level (r : result) : option level := snd (fst (fst r)).
Definition r_name (r : result) : option name := snd (fst r).
Definition r_tree (r : result) : rtree := snd r.
Definition hkey (k : key) : vkey := (shandle (k_stack k), k_level k, k_name k, thandle (k_acc k), k_max k).
Definition hres (r : result) : vres := (shandle (r_stack r), r_level r, r_name r, thandle (r_tree r)).
Definition kcells (k : key) : list rseen := scells (k_stack k) ++ tcells (k_acc k).
Definition rcells (r : result) : list rseen := scells (r_stack r) ++ tcells (r_tree r).
Definition nk (k : key) : list name := oroot (k_name k) ++ snames (k_stack k).
Definition nr (r : result) : list name := oroot (r_name r) ++ snames (r_stack r).
Definition cn (l : list key) : list name := flat_map (fun k => oroot (k_name k)) l.
Lemma cn_app l l' : cn (l ++ l') = cn l ++ cn l'.
Proof. apply flat_map_app. Qed.
Lemma cn_cons k l : cn (k :: l) = oroot (k_name k) ++ cn l.
Proof. reflexivity. Qed.

Lemma mkb_cells small fl fn acc t : side_mkb small fl fn acc = Ok t ->
  (forall n, cnt n (tnames t) = cnt n (oroot fn) + cnt n (tnames small) + cnt n (tnames acc)) /\
  incl (tcells small) (tcells t) /\ incl (tcells acc) (tcells t).
Proof.
  unfold side_mkb. intros H.
  assert (X : forall t1 t2, bin t1 fl fn t2 = Ok t -> (forall n, cnt n (tnames t) = cnt n (oroot fn) + cnt n (tnames t1) + cnt n (tnames t2)) /\
    incl (tcells t1) (tcells t) /\ incl (tcells t2) (tcells t)).
  { intros t1 t2 B. split; [intros n; rewrite (bin_names _ _ _ _ _ B), !cnt_app; lia|].
    unfold bin in B. apply bind_Ok in B. destruct B as (d & _ & B). apply new_Ok in B. subst t. rewrite tcells_eq. cbn [otcells].
    split; [apply incl_appr, incl_appl, incl_refl|apply incl_appr, incl_appr, incl_refl]. }
  destruct flip; destruct (X _ _ H) as (X1 & X2 & X3); (split; [intros n; specialize (X1 n); lia|auto]).
Qed.
Lemma snames_cons a nm m v n : archived a = Some (Head nm (m, v) n) -> snames a = oroot nm ++ snames (AStack v n).
Proof. unfold snames. intros ->. cbn [ohnames archived]. now rewrite hnames_eq. Qed.
Lemma scells_cons a nm m v n : archived a = Some (Head nm (m, v) n) -> incl (scells (AStack v n)) (scells a).
Proof. unfold scells. intros ->. cbn [ohcells hcells archived]. apply incl_appr. destruct n; apply incl_refl. Qed.

Definition closed_r (r : result) : Prop := r_level r = None -> nr r = [].
(** What a call leaves of the names and the cells. *)
Record part (k : key) (r : result) : Prop := {
  p_closed : closed_r r;
  p_names : forall n, cnt n (nk k) = cnt n (cn (all_calls k)) + cnt n (nr r);
  p_tree : forall n, cnt n (tnames (r_tree r)) = cnt n (tnames (k_acc k)) + cnt n (cn (all_calls k));
  p_stack : incl (scells (r_stack r)) (scells (k_stack k));
  p_acc : incl (tcells (k_acc k)) (tcells (r_tree r));
  p_calls : forall k2 r2, In k2 (all_calls k) -> pure k2 = Ok r2 ->
    incl (scells (k_stack k2)) (scells (k_stack k)) /\ incl (scells (r_stack r2)) (scells (k_stack k)) /\
    incl (tcells (k_acc k2)) (tcells (r_tree r)) /\ incl (tcells (r_tree r2)) (tcells (r_tree r))
}.
Lemma parts N : forall k r, mk k <= N -> pure k = Ok r -> part k r.
Proof.
  induction N as [|N IH]; intros k r L P; [pose proof (mk_pos k); lia|].
  destruct (calls_of c2 side_chk side_lf side_mkb k r P) as (a & r1 & b & Fi & Co & Ha & _ & Hb & Ec).
  assert (X : closed_r r1 /\ (forall n, cnt n (snames (k_stack k)) = cnt n (cn match a with inl _ => [] | inr k1 => all_calls k1 end) + cnt n (nr r1)) /\
    (forall n, cnt n (tnames (r_tree r1)) = cnt n (cn match a with inl _ => [] | inr k1 => all_calls k1 end)) /\
    incl (scells (r_stack r1)) (scells (k_stack k)) /\
    forall k2 r2, In k2 match a with inl _ => [] | inr k1 => all_calls k1 end -> pure k2 = Ok r2 ->
      incl (scells (k_stack k2)) (scells (k_stack k)) /\ incl (scells (r_stack r2)) (scells (k_stack k)) /\
      incl (tcells (k_acc k2)) (tcells (r_tree r1)) /\ incl (tcells (r_tree r2)) (tcells (r_tree r1))).
  { apply first_cases in Fi. destruct Fi as (_ & [(Ar & _ & ->)|(m & v & n & Ar & ->)]).
    - subst r1. split; [intros _; reflexivity|]. split; [intros n; unfold snames; now rewrite Ar|]. split; [reflexivity|]. split; [apply incl_nil_l|]. intros k2 r2 [].
    - pose proof (snames_cons _ _ _ _ _ Ar) as Sn. pose proof (scells_cons _ _ _ _ _ Ar) as Sc.
      destruct (c2 m (k_level k)).
      + destruct Ha as [L1 P1]. pose proof (fun L0 => IH _ _ L0 P1) as Z; specialize (Z ltac:(lia)); destruct Z as [Q1 Q2 Q3 Q4 Q5 Q6].
        unfold nk, k_name, k_stack, k_acc in Q2, Q3, Q4, Q5, Q6. cbn [fst snd] in Q2, Q3, Q4, Q5, Q6. fold (k_stack k) in *.
        split; [exact Q1|]. split; [intros z; rewrite Sn; apply Q2|]. split; [intros z; rewrite Q3; reflexivity|].
        split; [eapply incl_tran; eauto|]. intros k2 r2 I2 P2. destruct (Q6 k2 r2 I2 P2) as (W1 & W2 & W3 & W4). repeat split; auto; eapply incl_tran; eauto.
      + subst r1. split; [discriminate|]. split; [intros z; rewrite Sn; reflexivity|]. split; [reflexivity|]. split; [exact Sc|]. intros k2 r2 []. }
  destruct X as (X1 & X2 & X3 & X4 & X5).
  apply cont_cases in Co. destruct Co as (t & Mb & Eb). apply mkb_cells in Mb. destruct Mb as (M1 & M2 & M3). fold (r_tree r1) in M1, M2.
  assert (Y : closed_r r /\ (forall n, cnt n (nr r1) = cnt n (cn match b with inl _ => [] | inr k2 => all_calls k2 end) + cnt n (nr r)) /\
    (forall n, cnt n (tnames (r_tree r)) = cnt n (tnames t) + cnt n (cn match b with inl _ => [] | inr k2 => all_calls k2 end)) /\
    incl (scells (r_stack r)) (scells (r_stack r1)) /\ incl (tcells t) (tcells (r_tree r)) /\
    forall k2 r2, In k2 match b with inl _ => [] | inr k2 => all_calls k2 end -> pure k2 = Ok r2 ->
      incl (scells (k_stack k2)) (scells (r_stack r1)) /\ incl (scells (r_stack r2)) (scells (r_stack r1)) /\
      incl (tcells (k_acc k2)) (tcells (r_tree r)) /\ incl (tcells (r_tree r2)) (tcells (r_tree r))).
  { destruct r1 as [[[sh [lev|]] fn2] sm].
    - destruct (c2 lev (k_max k)); subst b.
      + destruct Hb as [L2 P2]. pose proof (IH _ _ (proj1 (Nat.lt_succ_r _ _) (Nat.lt_le_trans _ _ _ L2 L)) P2) as Z; destruct Z as [Q1 Q2 Q3 Q4 Q5 Q6].
        unfold nk, k_name, k_stack, k_acc in Q2, Q3, Q4, Q5, Q6. cbn [fst snd] in Q2, Q3, Q4, Q5, Q6.
        split; [exact Q1|]. split; [exact Q2|]. split; [exact Q3|]. split; [exact Q4|]. split; [exact Q5|exact Q6].
      + subst r. split; [exact X1|]. split; [reflexivity|]. split; [intros n; apply plus_n_O|]. split; [apply incl_refl|]. split; [apply incl_refl|]. intros k2 r2 [].
    - subst b. subst r. split; [intros _; reflexivity|]. split; [intros n; rewrite (X1 eq_refl); reflexivity|]. split; [intros n; apply plus_n_O|].
      split; [apply incl_nil_l|]. split; [apply incl_refl|]. intros k2 r2 []. }
  destruct Y as (Y1 & Y2 & Y3 & Y4 & Y5 & Y6).
  constructor.
  - exact Y1.
  - intros n. specialize (X2 n). specialize (Y2 n). unfold nk. rewrite Ec, cn_cons, cn_app, !cnt_app. lia.
  - intros n. specialize (X3 n). specialize (Y3 n). specialize (M1 n). rewrite Ec, cn_cons, cn_app, !cnt_app. lia.
  - eapply incl_tran; eauto.
  - eapply incl_tran; eauto.
  - intros k2 r2 I2 P2. rewrite Ec in I2. destruct I2 as [<-|I2].
    + rewrite P in P2. inv P2. repeat split; auto using incl_refl; eapply incl_tran; eauto.
    + apply in_app_or in I2. destruct I2 as [I2|I2].
      * destruct (X5 k2 r2 I2 P2) as (W1 & W2 & W3 & W4). assert (Z : incl (tcells (r_tree r1)) (tcells (r_tree r))) by (eapply incl_tran; eauto).
        repeat split; auto; eapply incl_tran; eauto.
      * destruct (Y6 k2 r2 I2 P2) as (W1 & W2 & W3 & W4). repeat split; auto; eapply incl_tran; eauto.
Qed.
Lemma parts_of k r : pure k = Ok r -> part k r.
Proof. exact (parts (mk k) k r (le_n _)). Qed.

(** ** The body in stages *)
Definition pnext (nl : option level) (lim : level) (a : astack E level) (n : option name) (t : rtree) : option key :=
  match nl with Some lev => if c2 lev lim then Some (a, lev, n, t, lim) else None | None => None end.
Definition pdefault (nl : option level) (a : astack E level) (n : option name) (t : rtree) : result :=
  match nl with Some lev => (a, Some lev, n, t) | None => (as_new, None, None, t) end.
Definition pstage nl lim a n t r : Prop := match pnext nl lim a n t with Some k => pure k = Ok r | None => r = pdefault nl a n t end.
Definition pcalls nl lim a n t : list key := match pnext nl lim a n t with Some k => all_calls k | None => [] end.
Definition v_stage fuel (nl : option level) lim s n h : side_vm vres :=
  match nl with
  | None => v_ret (sa_new, None, None, h)
  | Some lev => if c2 lev lim then v_from_memo eqE eqD (s, lev, n, h, lim) (v_side fuel s lev n h lim) else v_ret (s, Some lev, n, h)
  end.

Lemma body_run fuel s fl fn h mx st tab hr st' tr tab' lg : v_side (S fuel) s fl fn h mx st tab = Ok (hr, st', tr, tab', lg) ->
  exists vec nl s1 tr1 sh fl2 fn2 sm st2 tr2 tab2 lg2 ht st3 tr3 tr4 lg4,
    v_next_archive s st tab = Ok ((Some (vec, nl), s1), st, tr1, tab, []) /\
    v_stage fuel nl fl s1 (sa_name s) (thandle (side_lf vec)) st tab = Ok ((sh, fl2, fn2, sm), st2, tr2, tab2, lg2) /\
    (if flip then v_bin h fl fn sm else v_bin sm fl fn h) st2 tab2 = Ok (ht, st3, tr3, tab2, []) /\
    v_stage fuel fl2 mx sh fn2 ht st3 tab2 = Ok (hr, st', tr4, tab', lg4) /\
    tr = tr1 ++ tr2 ++ tr3 ++ tr4 /\ lg = (s, fl, fn, h, mx) :: lg2 ++ lg4.
Proof.
  intros H. cbn [v_side] in H. vstep H u0 st0 tr0 tab0 lg0 H0. inv H0. vstep H u1 st1 tr1 tab1 lg1 H1. apply v_lift_Ok in H1. destruct H1 as (_ & -> & -> & -> & ->).
  vstep H u2 st2 tr2 tab2 lg2 H2. apply v_lift_Ok in H2. destruct H2 as (_ & -> & -> & -> & ->).
  vstep H x3 st3 tr3 tab3 lg3 H3. destruct x3 as [o s1]. pose proof H3 as H3'. apply next_step in H3'. destruct H3' as (-> & -> & -> & _).
  vstep H x4 st4 tr4 tab4 lg4 H4. apply v_lift_Ok in H4. destruct H4 as (H4 & -> & -> & -> & ->). destruct o as [[vec nl]|]; [|discriminate]. inv H4.
  vstep H hl st5 tr5 tab5 lg5 H5. rewrite v_leaf_eq in H5. inv H5.
  vstep H x6 st6 tr6 tab6 lg6 H6. destruct x6 as [[[sh fl2] fn2] sm]. vstep H ht st7 tr7 tab7 lg7 H7.
  assert (Q7 : tab7 = tab6 /\ lg7 = []) by (destruct flip; apply bin_step in H7; destruct H7 as (-> & -> & _); auto). destruct Q7 as [-> ->].
  do 17 eexists. split; [exact H3|]. split; [exact H6|]. split; [exact H7|]. split; [exact H|]. cbn [app]. auto.
Qed.
Lemma body_pure k r : pure k = Ok r -> exists vec nl a1 r1 t,
  as_next_archive (k_stack k) = Ok (Some (vec, nl), a1) /\
  pstage nl (k_level k) a1 (as_name (k_stack k)) (side_lf vec) r1 /\
  side_mkb (r_tree r1) (k_level k) (k_name k) (k_acc k) = Ok t /\
  pstage (r_level r1) (k_max k) (r_stack r1) (r_name r1) t r /\
  all_calls k = k :: pcalls nl (k_level k) a1 (as_name (k_stack k)) (side_lf vec) ++ pcalls (r_level r1) (k_max k) (r_stack r1) (r_name r1) t.
Proof.
  intros P. destruct (calls_of c2 side_chk side_lf side_mkb k r P) as (a & r1 & b & Fi & Co & Ha & _ & Hb & Ec).
  assert (X : exists vec nl a1, as_next_archive (k_stack k) = Ok (Some (vec, nl), a1) /\
    a = match pnext nl (k_level k) a1 (as_name (k_stack k)) (side_lf vec) with Some k1 => inr k1 | None => inl (pdefault nl a1 (as_name (k_stack k)) (side_lf vec)) end).
  { apply first_cases in Fi. destruct Fi as (_ & [(Ar & Cu & ->)|(m & v & n & Ar & ->)]).
    - exists (current (k_stack k)), None, as_new. split; [|reflexivity]. unfold as_next_archive, as_is_empty. rewrite Ar. cbn [stack_is_empty].
      destruct (current (k_stack k)); [congruence|reflexivity].
    - exists (current (k_stack k)), (Some m), (AStack v n). split.
      + unfold as_next_archive, as_is_empty. rewrite Ar. cbn [stack_is_empty]. rewrite andb_false_r. reflexivity.
      + unfold pnext, pdefault. destruct (c2 m (k_level k)); reflexivity. }
  destruct X as (vec & nl & a1 & Nx & Ea). apply cont_cases in Co. destruct Co as (t & Mb & Eb).
  exists vec, nl, a1, r1, t. split; [exact Nx|]. split; [|split; [exact Mb|]].
  - unfold pstage. subst a. destruct (pnext nl (k_level k) a1 (as_name (k_stack k)) (side_lf vec)); [apply Ha|now symmetry].
  - assert (Eb' : b = match pnext (r_level r1) (k_max k) (r_stack r1) (r_name r1) t with Some k2 => inr k2 | None => inl (pdefault (r_level r1) (r_stack r1) (r_name r1) t) end).
    { rewrite Eb. destruct r1 as [[[sh [lev|]] fn2] sm]; [|reflexivity]. unfold pnext, pdefault, r_level, r_stack, r_name. cbn [fst snd]. now destruct (c2 lev (k_max k)). }
    split.
    + unfold pstage. rewrite Eb' in Hb. destruct (pnext (r_level r1) (k_max k) (r_stack r1) (r_name r1) t); [apply Hb|now symmetry].
    + rewrite Ec, Ea, Eb'. unfold pcalls.
      destruct (pnext nl (k_level k) a1 (as_name (k_stack k)) (side_lf vec)), (pnext (r_level r1) (k_max k) (r_stack r1) (r_name r1) t); reflexivity.
Qed.
(** Names and cells of a stage. *)
Lemma pstage_part nl lim a n t r : pstage nl lim a n t r -> (nl = None -> oroot n ++ snames a = []) ->
  closed_r r /\ (forall z, cnt z (oroot n ++ snames a) = cnt z (cn (pcalls nl lim a n t)) + cnt z (nr r)) /\
  (forall z, cnt z (tnames (r_tree r)) = cnt z (tnames t) + cnt z (cn (pcalls nl lim a n t))) /\
  incl (scells (r_stack r)) (scells a) /\ incl (tcells t) (tcells (r_tree r)).
Proof.
  unfold pstage, pcalls, pnext, pdefault. intros H Cl. destruct nl as [lev|].
  - destruct (c2 lev lim).
    + destruct (parts_of _ _ H) as [Q1 Q2 Q3 Q4 Q5 _]. split; [exact Q1|]. split; [exact Q2|]. split; [exact Q3|]. split; [exact Q4|exact Q5].
    + subst r. split; [discriminate|]. split; [reflexivity|]. split; [intros z; apply plus_n_O|]. split; apply incl_refl.
  - subst r. split; [intros _; reflexivity|]. split; [intros z; rewrite (Cl eq_refl); reflexivity|]. split; [intros z; apply plus_n_O|].
    split; [apply incl_nil_l|apply incl_refl].
Qed.
Lemma next_parts a vec nl a1 : as_next_archive a = Ok (Some (vec, nl), a1) ->
  snames a = oroot (as_name a) ++ snames a1 /\ incl (scells a1) (scells a) /\ (nl = None -> oroot (as_name a) ++ snames a1 = []).
Proof.
  intros H. split; [exact (next_names _ _ _ H)|]. apply next_cases in H.
  destruct H as [(H & _)|[(H & Ar & _ & ->)|(m & v & n & H & Ar & ->)]]; [discriminate| |].
  - split; [apply incl_nil_l|]. intros _. unfold as_name. rewrite Ar. reflexivity.
  - inv H. split; [exact (scells_cons _ _ _ _ _ Ar)|discriminate].
Qed.

Lemma pcalls_closed nl lim a n t r : pstage nl lim a n t r -> forall k2, In k2 (pcalls nl lim a n t) -> incl (all_calls k2) (pcalls nl lim a n t).
Proof.
  unfold pstage, pcalls. destruct (pnext nl lim a n t) as [k|]; [|contradiction]. intros P k2 I2.
  exact (proj1 (calls_closed c2 side_chk side_lf side_mkb k r P k2 I2)).
Qed.
Lemma tail_calls k r : pure k = Ok r -> exists C, all_calls k = k :: C /\ forall k2, In k2 C -> incl (all_calls k2) C.
Proof.
  intros P. destruct (body_pure _ _ P) as (vec & nl & a1 & r1 & t & _ & S1 & _ & S2 & Ec). eexists. split; [exact Ec|]. intros k2 I2.
  apply in_app_or in I2. destruct I2 as [I2|I2]; [apply incl_appl|apply incl_appr]; eapply pcalls_closed; eauto.
Qed.

(** ** What the entries promise *)
Definition prom (hk : vkey) tr (hr : vres) (ks : list vkey) : Prop :=
  forall st2, has st2 tr -> forall k r, hkey k = hk -> has st2 (kcells k) -> pure k = Ok r ->
  hr = hres r /\ has st2 (rcells r) /\ map hkey (all_calls k) = ks /\ incl tr (kcells k ++ rcells r).
Definition tab_ok tab : Prop := forall b e, tab b = Some e -> exists ks, prom (ce_arg e) (ce_seen e) (ce_res e) ks.
Definition call_ok (k : vkey) (m : side_vm vres) : Prop :=
  forall st tab r st' tr tab' lg, tab_ok tab -> m st tab = Ok (r, st', tr, tab', lg) -> tab_ok tab' /\ exists ks, prom k tr r ks.
Lemma memo_ok k m : call_ok k m -> call_ok k (v_from_memo eqE eqD k m).
Proof.
  intros B st tab r st' tr tab' lg Sd H. destruct k as [[[[s lv] nm] h] mx]. unfold v_from_memo in H.
  destruct (fork_left nm) as [n|]; [|eapply B; eauto]. cbn [v_memo_opt] in H. unfold v_memo in H.
  set (k := (s, lv, nm, h, mx)) in *.
  assert (Rr : (do ' (r, st', s0, tab', lg) <- m st tab; Ok (r, st', s0, c_set tab' (path, n) (CEntry k s0 r), lg)) = Ok (r, st', tr, tab', lg) ->
     tab_ok tab' /\ exists ks, prom k tr r ks).
  { intros Q. apply bind_Ok in Q. destruct Q as ([[[[r1 st1] tr1] tab1] lg1] & Q & Z). inv Z.
    destruct (B _ _ _ _ _ _ _ Sd Q) as [S1 G]. split; [|exact G]. intros b e. unfold c_set.
    destruct (loc_eq_dec b (path, n)) as [->|Ne]; [|apply S1]. intros [= <-]. exact G. }
  destruct (tab (path, n)) as [e|] eqn:Te; [|exact (Rr H)].
  destruct (vkey_same eqE eqD k (ce_arg e) && forallb (cholds (eqL eqE) eqD st) (ce_seen e)) eqn:Sm; [|exact (Rr H)].
  apply andb_true_iff in Sm. destruct Sm as (Sk & _). apply vkey_same_eq in Sk. rewrite Sk. inv H.
  split; [exact Sd|]. exact (Sd _ _ Te).
Qed.
Definition sprom (nl : option level) lim s n h tr (hr : vres) ks : Prop :=
  match nl with
  | Some lev => if c2 lev lim then prom (s, lev, n, h, lim) tr hr ks else hr = (s, Some lev, n, h) /\ tr = [] /\ ks = []
  | None => hr = (sa_new, None, None, h) /\ tr = [] /\ ks = []
  end.
Lemma stage_ok fuel nl lim s n h st tab hr st' tr tab' lg :
  (forall s l n h mx, call_ok (s, l, n, h, mx) (v_side fuel s l n h mx)) -> tab_ok tab ->
  v_stage fuel nl lim s n h st tab = Ok (hr, st', tr, tab', lg) -> tab_ok tab' /\ exists ks, sprom nl lim s n h tr hr ks.
Proof.
  intros IH T. unfold v_stage, sprom. destruct nl as [lev|].
  - destruct (c2 lev lim).
    + intros H. eapply memo_ok in H; eauto.
    + intros H. inv H. split; [exact T|]. exists []. auto.
  - intros H. inv H. split; [exact T|]. exists []. auto.
Qed.
Lemma sprom_use nl lim a n t tr hr ks st2 r : sprom nl lim (shandle a) n (thandle t) tr hr ks -> has st2 tr ->
  has st2 (scells a) -> has st2 (tcells t) -> pstage nl lim a n t r ->
  hr = hres r /\ has st2 (rcells r) /\ map hkey (pcalls nl lim a n t) = ks /\ incl tr (scells a ++ tcells t ++ rcells r).
Proof.
  unfold sprom, pstage, pcalls, pnext, pdefault. intros P Ht Ha Hn S. destruct nl as [lev|].
  - destruct (c2 lev lim).
    + destruct (P st2 Ht (a, lev, n, t, lim) r eq_refl (proj2 (has_app _ _ _) (conj Ha Hn)) S) as (R1 & R2 & R3 & R4). rewrite app_assoc. auto.
    + destruct P as (-> & -> & ->). subst r. split; [reflexivity|]. split; [apply has_app; auto|]. split; [reflexivity|apply incl_nil_l].
  - destruct P as (-> & -> & ->). subst r. split; [reflexivity|]. split; [apply has_app; split; [apply has_nil|exact Hn]|]. split; [reflexivity|apply incl_nil_l].
Qed.
Lemma mkb_step sm fl fn h st tab ht st' tr tab' lg : (if flip then v_bin h fl fn sm else v_bin sm fl fn h) st tab = Ok (ht, st', tr, tab', lg) ->
  upto (oroot fn) st st' /\
  (forall t1 t2, thandle t1 = sm -> thandle t2 = h -> has st (tcells t1) -> has st (tcells t2) ->
     apart (oroot fn) (tnames t1 ++ tnames t2) -> has st' tr) /\
  forall st2 t1 t2 t, has st2 tr -> has st2 (tcells t1) -> has st2 (tcells t2) -> thandle t1 = sm -> thandle t2 = h ->
    side_mkb t1 fl fn t2 = Ok t -> ht = thandle t /\ has st2 (tcells t) /\ incl tr (tcells t).
Proof.
  unfold side_mkb. destruct flip; intros H; apply bin_step in H; destruct H as (_ & _ & H1 & H2 & H3); (split; [exact H1|]); (split; [|eauto]).
  - intros t1 t2 Q1 Q2 C1 C2 Ap. apply (H2 t2 t1); auto. names.
  - exact H2.
Qed.
Lemma side_ok fuel : forall s fl fn h mx, call_ok (s, fl, fn, h, mx) (v_side fuel s fl fn h mx).
Proof.
  induction fuel as [|fuel IH]; intros s fl fn h mx st tab hr st' tr tab' lg T H; [discriminate|].
  apply body_run in H. destruct H as (vec & nl & s1 & tr1 & sh & fl2 & fn2 & sm & st2 & tr2 & tab2 & lg2 & ht & st3 & tr3 & tr4 & lg4 & H1 & H2 & H3 & H4 & -> & ->).
  apply next_step in H1. destruct H1 as (_ & _ & _ & _ & P1).
  apply (stage_ok _ _ _ _ _ _ _ _ _ _ _ _ _ IH T) in H2. destruct H2 as (T2 & ks1 & P2).
  apply mkb_step in H3. destruct H3 as (_ & _ & P3).
  apply (stage_ok _ _ _ _ _ _ _ _ _ _ _ _ _ IH T2) in H4. destruct H4 as (T4 & ks2 & P4).
  split; [exact T4|]. exists ((s, fl, fn, h, mx) :: ks1 ++ ks2). intros st5 Ht k r Q Hk Pu.
  apply has_app in Ht. destruct Ht as [Ht1 Ht]. apply has_app in Ht. destruct Ht as [Ht2 Ht]. apply has_app in Ht. destruct Ht as [Ht3 Ht4].
  apply has_app in Hk. destruct Hk as [Hs Ha]. pose proof (parts_of _ _ Pu) as Pk. destruct (body_pure _ _ Pu) as (vec' & nl' & a1 & r1 & t & N1 & S1 & B & S2 & Ec).
  assert (Q' : shandle (k_stack k) = s /\ k_level k = fl /\ k_name k = fn /\ thandle (k_acc k) = h /\ k_max k = mx) by (unfold hkey in Q; injection Q; auto).
  destruct Q' as (Q1 & Q2 & Q3 & Q4 & Q5). subst s fl fn h mx.
  destruct (P1 st5 (k_stack k) Ht1 Hs eq_refl) as (o & a1' & N1' & X & I1 & I1'). rewrite N1 in N1'. injection N1' as <- <-. injection X as -> -> ->.
  destruct (next_parts _ _ _ _ N1) as (_ & _ & Cl). destruct (pstage_part _ _ _ _ _ _ S1 Cl) as (Cl1 & _ & _ & Is1 & _).
  rewrite shandle_name in P2.
  destruct (sprom_use _ _ _ _ _ _ _ _ st5 _ P2 Ht2 (has_incl _ _ _ I1' Hs) (has_nil _) S1) as (R1 & R2 & R3 & R4).
  apply has_app in R2. destruct R2 as [R2s R2t]. unfold hres in R1. injection R1 as -> -> -> ->.
  destruct (P3 st5 _ _ _ Ht3 R2t Ha eq_refl eq_refl B) as (-> & Ct & I3).
  destruct (pstage_part _ _ _ _ _ _ S2 Cl1) as (_ & _ & _ & Is2 & It2).
  destruct (sprom_use _ _ _ _ _ _ _ _ st5 _ P4 Ht4 R2s Ct S2) as (-> & R5 & R6 & R7).
  destruct (mkb_cells _ _ _ _ _ B) as (_ & M2 & M3).
  split; [reflexivity|]. split; [exact R5|]. split; [rewrite Ec; cbn [map]; rewrite map_app, R3, R6, Q; reflexivity|].
  assert (A1 : incl (scells a1) (kcells k ++ rcells r)) by (apply incl_appl, incl_appl; exact I1').
  assert (A2 : incl (tcells t) (kcells k ++ rcells r)) by (apply incl_appr, incl_appr; exact It2).
  assert (A3 : incl (scells (r_stack r1)) (kcells k ++ rcells r)) by (eapply incl_tran; [exact Is1|exact A1]).
  apply incl_app; [apply incl_appl, incl_appl; exact I1|]. apply incl_app; [|apply incl_app].
  - eapply incl_tran; [exact R4|]. apply incl_app; [exact A1|]. apply incl_app; [apply incl_nil_l|]. apply incl_app; [exact A3|]. eapply incl_tran; [exact M2|exact A2].
  - eapply incl_tran; [exact I3|exact A2].
  - eapply incl_tran; [exact R7|]. apply incl_app; [exact A3|]. apply incl_app; [exact A2|]. apply incl_appr, incl_refl.
Qed.

(** ** A run after a run *)
Definition vk_name (k : vkey) : option name := snd (fst (fst k)).
Definition quiet (lg : list vkey) st st' : Prop :=
  forall b, (forall hk n, In hk lg -> vk_name hk = Some n -> b <> (path, n)) -> st' b = st b.
Definition tupto (L : list name) tab tab' : Prop := forall b, (forall n, 0 < cnt n L -> b <> (path, NForkL n)) -> tab' b = tab b.
Definition inseen tab tr (k : key) : Prop := exists n e, k_name k = Some n /\ tab (path, NForkL n) = Some e /\ incl (ce_seen e) tr.
Definition cov tab (k : key) : Prop := exists n e r, k_name k = Some n /\ tab (path, NForkL n) = Some e /\ pure k = Ok r /\
  ce_arg e = hkey k /\ ce_res e = hres r /\ prom (ce_arg e) (ce_seen e) (ce_res e) (map hkey (all_calls k)) /\
  incl (ce_seen e) (kcells k ++ rcells r) /\ forall k2, In k2 (all_calls k) -> inseen tab (ce_seen e) k2.
Lemma in_cn k C n : In k C -> k_name k = Some n -> 0 < cnt n (cn C).
Proof. intros I N. apply cnt_In. unfold cn. apply in_flat_map. exists k. split; [exact I|]. rewrite N. now left. Qed.
Lemma cn_incl C C' n : incl C C' -> 0 < cnt n (cn C) -> 0 < cnt n (cn C').
Proof.
  rewrite <- !cnt_In. unfold cn. rewrite !in_flat_map. intros I (k & J & H). exists k. auto.
Qed.
Lemma tupto_at L tab tab' n : tupto L tab tab' -> cnt n L = 0 -> tab' (path, NForkL n) = tab (path, NForkL n).
Proof. intros H Z. apply H. intros m P Q. injection Q as <-. lia. Qed.
Lemma tupto_trans L L1 L2 tab tab1 tab2 : tupto L1 tab tab1 -> tupto L2 tab1 tab2 -> (forall n, cnt n L1 <= cnt n L) -> (forall n, cnt n L2 <= cnt n L) ->
  tupto L tab tab2.
Proof.
  intros U1 U2 S1 S2 b H. rewrite (U2 b), (U1 b); auto; intros n P; apply H; [specialize (S1 n)|specialize (S2 n)]; lia.
Qed.
Lemma upto_trans2 L L1 L2 (st st1 st2 : rstore) : upto L1 st st1 -> upto L2 st1 st2 -> (forall n, cnt n L1 <= cnt n L) -> (forall n, cnt n L2 <= cnt n L) ->
  upto L st st2.
Proof.
  intros U1 U2 S1 S2 b H. rewrite (U2 b), (U1 b); auto; destruct H as [H|H]; auto; right; [specialize (S1 (snd b))|specialize (S2 (snd b))]; lia.
Qed.
Lemma quiet_trans lg1 lg2 lg st st1 st2 : quiet lg1 st st1 -> quiet lg2 st1 st2 -> incl lg1 lg -> incl lg2 lg -> quiet lg st st2.
Proof. intros Q1 Q2 I1 I2 b H. rewrite (Q2 b), (Q1 b); auto; intros hk n J; apply H; auto. Qed.
Lemma keep_t L st st' t : upto L st st' -> has st (tcells t) -> apart L (tnames t) -> has st' (tcells t).
Proof.
  intros U H Ap b c I. rewrite U; [now apply H|right]. apply tcells_names in I. destruct I as [_ I]. apply cnt_In in I. specialize (Ap (snd b)). lia.
Qed.
Lemma inseen_agree tab tab' tr tr' k : (forall n, k_name k = Some n -> tab' (path, NForkL n) = tab (path, NForkL n)) -> incl tr tr' ->
  inseen tab tr k -> inseen tab' tr' k.
Proof. intros A I (n & e & N & T & J). exists n, e. rewrite (A n N). repeat split; auto. eapply incl_tran; eauto. Qed.
Lemma cov_agree tab tab' k : (forall n, 0 < cnt n (cn (all_calls k)) -> tab' (path, NForkL n) = tab (path, NForkL n)) -> cov tab k -> cov tab' k.
Proof.
  intros A (n & e & r & N & T & Pu & R). destruct (body_pure _ _ Pu) as (? & ? & ? & ? & ? & _ & _ & _ & _ & Ec).
  exists n, e, r. split; [exact N|]. split; [rewrite A; [exact T|]; apply (in_cn k); [rewrite Ec; now left|exact N]|].
  split; [exact Pu|]. destruct R as (R1 & R2 & R3 & R4 & R5). repeat (split; [assumption|]). intros k2 I2.
  eapply inseen_agree; [|apply incl_refl|exact (R5 k2 I2)]. intros m Nm. apply A. eapply in_cn; eauto.
Qed.

Lemma vkey_same_refl k : vkey_same eqE eqD k k = true.
Proof.
  destruct k as [[[[s l] n] t] m]. unfold vkey_same. rewrite !andb_true_iff, !N.eqb_eq.
  repeat split; [now apply sastack_same_eq|destruct (oname_eq_dec n n); congruence|now apply stree_same_eq].
Qed.

Section Run.
Context (Q : list key) (tab0 : rtab) (st0 : rstore).
Hypothesis other : q <> path.
Hypothesis Q_closed : forall k, In k Q -> incl (all_calls k) Q.
Hypothesis Q_cov : forall k, In k Q -> cov tab0 k.
Hypothesis Q_cells : forall k r, In k Q -> pure k = Ok r -> has st0 (tcells (r_tree r)).
Notation fresh := (MemoTwo.fresh (from_same eqE eqD) Q).

Lemma keep_s L st st' a : upto L st st' -> has st (scells a) -> has st' (scells a).
Proof using other. intros U H b c I. rewrite U; [now apply H|left]. apply scells_names in I. congruence. Qed.

Definition agree (L : list name) st tab : Prop := forall z, 0 < cnt z L ->
  tab (path, NForkL z) = tab0 (path, NForkL z) /\ st (path, z) = st0 (path, z) /\
  forall e, tab0 (path, NForkL z) = Some e -> exists k, In k Q /\ k_name k = Some z.
Lemma agree_sub L L' st tab : agree L st tab -> (forall z, cnt z L' <= cnt z L) -> agree L' st tab.
Proof. intros A S z H. apply A. specialize (S z). lia. Qed.
Lemma agree_step L D D' st st' tab tab' : agree L st tab -> upto D st st' -> tupto D' tab tab' -> apart D L -> apart D' L -> agree L st' tab'.
Proof.
  intros A U T Ap Ap' z H. destruct (A z H) as (A1 & A2 & A3). split; [|split; [|exact A3]].
  - rewrite (tupto_at D' tab tab'); auto. specialize (Ap' z). lia.
  - rewrite U; auto. right. cbn [snd]. specialize (Ap z). lia.
Qed.

Record before (k : key) (r : result) st tab : Prop := {
  b_pure : pure k = Ok r;
  b_uniq : uniq (nk k ++ tnames (k_acc k));
  b_named : forall k2, In k2 (all_calls k) -> k_name k2 <> None;
  b_ok : tab_ok tab;
  b_cells : has st (kcells k);
  b_agree : agree (nk k) st tab
}.
Lemma keep_k k r st tab st' : before k r st tab -> upto (cn (all_calls k)) st st' -> has st' (kcells k).
Proof using other.
  intros [Pu Un _ _ Hc _] U. apply has_app in Hc. destruct Hc as [Hc1 Hc2]. apply has_app. split; [eapply keep_s; eauto|].
  eapply keep_t; [exact U|exact Hc2|]. destruct (parts_of _ _ Pu) as [_ Pn _ _ _ _]. intros z. specialize (Un z). specialize (Pn z). rewrite cnt_app in Un. lia.
Qed.
(** [C]: the calls made. *)
Record after (C : list key) (cells : list rseen) (r : result) st tab hr st' tr tab' lg (extra : nat) : Prop := {
  a_res : hr = hres r;
  a_cells : has st' (rcells r);
  a_seen : incl tr (cells ++ rcells r);
  a_upto : upto (cn C) st st';
  a_quiet : quiet lg st st';
  a_ok : tab_ok tab';
  a_count : length lg <= extra + length (filter fresh C)
}.
Definition left_tab (C : list key) tab tr tab' : Prop :=
  tupto (cn C) tab tab' /\ forall k2, In k2 C -> cov tab' k2 /\ inseen tab' tr k2.

(** A call answered by an entry. *)
Lemma hit_run k r st tab n e : before k r st tab -> k_name k = Some n -> tab (path, NForkL n) = Some e -> hkey k = ce_arg e -> has st (ce_seen e) ->
  after (all_calls k) (kcells k) r st tab (ce_res e) st (ce_seen e) tab [] 0 /\ left_tab (all_calls k) tab (ce_seen e) tab.
Proof using Q_closed Q_cov.
  intros [Pu Un Na To Hc Ag] Nk Te Ka Hs. destruct (parts_of _ _ Pu) as [_ Pn _ _ _ Pc].
  assert (Nn : 0 < cnt n (nk k)). { unfold nk. rewrite Nk, cnt_app. cbn [oroot]. unfold cnt at 1. cbn. destruct (name_eq_dec n n); [lia|congruence]. }
  destruct (Ag n Nn) as (T0 & _ & K0). rewrite T0 in Te. destruct (K0 _ Te) as (kn & In_ & Nkn). destruct (Q_cov kn In_) as (n' & e' & rn & Nn' & Te' & Pun & Ka' & Kr' & Pr & _ & Sub).
  assert (n' = n) by congruence. subst n'. assert (e' = e) by congruence. subst e'.
  destruct (Pr st Hs k r Ka Hc Pu) as (R1 & R2 & R3 & R4).
  assert (AgC : forall m, 0 < cnt m (cn (all_calls k)) -> tab (path, NForkL m) = tab0 (path, NForkL m)).
  { intros m Pm. apply (Ag m). specialize (Pn m). lia. }
  split.
  - constructor; auto; [intros b _; reflexivity|intros b _; reflexivity|cbn; lia].
  - split; [intros b _; reflexivity|]. intros k2 I2.
    assert (Q2 : exists kq, In kq (all_calls kn) /\ hkey kq = hkey k2).
    { pose proof (in_map hkey _ _ I2) as J. rewrite R3 in J. apply in_map_iff in J. destruct J as (kq & J1 & J2). eauto. }
    destruct Q2 as (kq & Iq & Hq). assert (Nq : k_name kq = k_name k2) by (unfold hkey in Hq; now injection Hq).
    destruct (calls_closed c2 side_chk side_lf side_mkb k r Pu k2 I2) as (Inc2 & r2 & Pu2).
    destruct (Pc k2 r2 I2 Pu2) as (W1 & W2 & W3 & W4).
    destruct (Sub kq Iq) as (m & e2 & Nm & Tm & Se2). destruct (Q_cov kq (Q_closed kn In_ kq Iq)) as (m' & e2' & rq & Nm' & Tm' & Puq & Kaq & Krq & Prq & _ & Subq).
    assert (m' = m) by congruence. subst m'. assert (e2' = e2) by congruence. subst e2'.
    assert (Hk2 : has st (kcells k2)).
    { apply has_app in Hc. destruct Hc as [Hc1 Hc2]. apply has_app in R2. destruct R2 as [R2s R2t]. apply has_app. split; [eapply has_incl; eauto|eapply has_incl; eauto]. }
    destruct (Prq st (has_incl _ _ _ Se2 Hs) k2 r2 ltac:(congruence) Hk2 Pu2) as (X1 & X2 & X3 & X4).
    assert (Tm2 : tab (path, NForkL m) = Some e2). { rewrite AgC; [exact Tm|]. apply (in_cn k2); [exact I2|congruence]. }
    assert (Ins : forall tr k3, In k3 (all_calls k) -> inseen tab0 tr k3 -> inseen tab tr k3).
    { intros tr0 k3 I3. apply inseen_agree; [|apply incl_refl]. intros x Nx. apply AgC. eapply in_cn; eauto. }
    split; [|exists m, e2; repeat split; auto; congruence].
    exists m, e2, r2. split; [congruence|]. split; [exact Tm2|]. split; [exact Pu2|]. split; [congruence|]. split; [exact X1|].
    split; [rewrite X3; exact Prq|]. split; [exact X4|]. intros k3 I3. apply Ins; [apply Inc2, I3|].
    pose proof (in_map hkey _ _ I3) as J. rewrite X3 in J. apply in_map_iff in J. destruct J as (kq3 & J1 & J2).
    destruct (Subq kq3 J2) as (m3 & e3 & Nm3 & Tm3 & Se3). exists m3, e3. split; [|auto]. unfold hkey in J1. injection J1. intros. congruence.
Qed.

(** The entries of the previous run answer. *)
Lemma known_holds k r st tab : before k r st tab -> In k Q -> exists n e, k_name k = Some n /\ tab (path, NForkL n) = Some e /\ hkey k = ce_arg e /\ has st (ce_seen e).
Proof using Q_cov Q_cells.
  intros [Pu Un Na To Hc Ag] Ik. destruct (Q_cov k Ik) as (n & e & r' & Nk & Te & Pu' & Ka & Kr & Pr & Inc & _).
  rewrite Pu in Pu'. injection Pu' as <-. destruct (parts_of _ _ Pu) as [_ Pn Pt Ps Pa _].
  exists n, e. split; [exact Nk|].
  assert (Nn : 0 < cnt n (nk k)). { unfold nk. rewrite Nk, cnt_app. cbn [oroot]. unfold cnt at 1. cbn. destruct (name_eq_dec n n); [lia|congruence]. }
  destruct (Ag n Nn) as (T0 & _). split; [congruence|]. split; [congruence|].
  eapply has_incl; [exact Inc|]. apply has_app. split; [exact Hc|]. apply has_app in Hc. destruct Hc as [Hs Ht].
  apply has_app. split; [eapply has_incl; eauto|]. intros b c I. pose proof (tcells_names _ _ _ I) as [Hb Hn].
  destruct b as [p z]. cbn [fst snd] in *. subst p. apply cnt_In in Hn. rewrite Pt in Hn.
  destruct (Nat.eq_dec (cnt z (tnames (k_acc k))) 0) as [Z|Z].
  - destruct (Ag z) as (_ & -> & _); [specialize (Pn z); lia|]. exact (Q_cells k r Ik Pu _ _ I).
  - assert (In z (tnames (k_acc k))) as J by (apply cnt_In; lia). apply tcells_In in J. destruct J as (c' & J). rewrite (Ht _ _ J). f_equal.
    refine (tcells_uniq _ _ _ _ _ (Pa _ J) I). intros x. specialize (Un x). specialize (Pn x). specialize (Pt x). rewrite cnt_app in Un. unfold nr in Pn. lia.
Qed.

Definition side_runs fuel : Prop := forall k r st tab hr st' tr tab' lg, before k r st tab ->
  v_side fuel (shandle (k_stack k)) (k_level k) (k_name k) (thandle (k_acc k)) (k_max k) st tab = Ok (hr, st', tr, tab', lg) ->
  after (all_calls k) (kcells k) r st tab hr st' tr tab' lg 1 /\ has st' tr /\
  forall C, all_calls k = k :: C -> left_tab C tab tr tab' /\ length lg <= 1 + length (filter fresh C).
Lemma memo_run fuel k r st tab hr st' tr tab' lg : side_runs fuel -> before k r st tab ->
  v_from_memo eqE eqD (hkey k) (v_side fuel (shandle (k_stack k)) (k_level k) (k_name k) (thandle (k_acc k)) (k_max k)) st tab = Ok (hr, st', tr, tab', lg) ->
  after (all_calls k) (kcells k) r st tab hr st' tr tab' lg 0 /\ left_tab (all_calls k) tab tr tab'.
Proof using other Q_closed Q_cov Q_cells.
  intros IH Be H. pose proof Be as [Pu Un Na To Hc Ag]. destruct (tail_calls _ _ Pu) as (C & Ec & Ccl).
  destruct (k_name k) as [n|] eqn:Nk; [|exfalso; apply (Na k); [rewrite Ec; now left|exact Nk]].
  assert (Vn : v_from_memo eqE eqD (hkey k) = v_memo (eqL eqE) eqD (vkey_same eqE eqD) (NForkL n) (hkey k)).
  { unfold v_from_memo, hkey. rewrite Nk. reflexivity. }
  rewrite Vn in H. unfold v_memo in H. set (m := v_side fuel _ _ _ _ _) in H.
  assert (Rr : ~ In k Q -> (do ' (r, st', s0, tab', lg) <- m st tab; Ok (r, st', s0, c_set tab' (path, NForkL n) (CEntry (hkey k) s0 r), lg)) = Ok (hr, st', tr, tab', lg) ->
     after (all_calls k) (kcells k) r st tab hr st' tr tab' lg 0 /\ left_tab (all_calls k) tab tr tab').
  { intros Nq R. apply bind_Ok in R. destruct R as ([[[[r1 st1] tr1] tab1] lg1] & R & Z). injection Z as -> -> -> <- ->.
    unfold m in R. rewrite <- Nk in R. pose proof R as R'. apply (IH _ _ _ _ _ _ _ _ _ Be) in R. destruct R as ([A1 A2 A3 A4 A5 A6 _] & Ht & Lf).
    destruct (Lf C Ec) as ([L1 L2] & Lc). clear Lf. destruct (side_ok _ _ _ _ _ _ _ _ _ _ _ _ _ To R') as (_ & ks & P).
    destruct (P st' Ht k r eq_refl (keep_k _ _ _ _ _ Be A4) Pu) as (_ & _ & Pk & _).
    assert (Nc : cnt n (cn C) = 0).
    { destruct (parts_of _ _ Pu) as [_ Pn _ _ _ _]. specialize (Un n). specialize (Pn n). rewrite Ec, cn_cons, Nk, cnt_app in Pn. rewrite cnt_app in Un.
      cbn [oroot] in Pn. unfold cnt at 2 in Pn. cbn in Pn. destruct (name_eq_dec n n); [lia|congruence]. }
    assert (Other : forall z, 0 < cnt z (cn C) -> c_set tab1 (path, NForkL n) (CEntry (hkey k) tr hr) (path, NForkL z) = tab1 (path, NForkL z)).
    { intros z Pz. unfold c_set. destruct (loc_eq_dec (path, NForkL z) (path, NForkL n)) as [W|]; [|reflexivity]. injection W as ->. lia. }
    assert (Here : c_set tab1 (path, NForkL n) (CEntry (hkey k) tr hr) (path, NForkL n) = Some (CEntry (hkey k) tr hr)).
    { unfold c_set. now destruct (loc_eq_dec (path, NForkL n) (path, NForkL n)). }
    split.
    - constructor; auto.
      + intros b e. unfold c_set. destruct (loc_eq_dec b (path, NForkL n)) as [->|Ne]; [|apply A6]. intros [= <-]. exists ks. exact P.
      + rewrite Ec. cbn [filter]. assert (F : fresh k = true).
        { destruct (fresh k) eqn:F; [reflexivity|]. apply (fresh_false (from_same eqE eqD) (from_same_eq eqE eqD) Q k) in F. contradiction. }
        rewrite F. cbn [length]. lia.
    - assert (Sub : forall k2, In k2 (all_calls k) -> inseen (c_set tab1 (path, NForkL n) (CEntry (hkey k) tr hr)) tr k2).
      { intros k2 I2. rewrite Ec in I2. destruct I2 as [<-|I2].
        - exists n, (CEntry (hkey k) tr hr). split; [exact Nk|]. split; [exact Here|apply incl_refl].
        - eapply inseen_agree; [|apply incl_refl|apply (L2 k2 I2)]. intros z Nz. apply Other. eapply in_cn; eauto. }
      split.
      + intros b Hb. unfold c_set. destruct (loc_eq_dec b (path, NForkL n)) as [->|Ne].
        * exfalso. apply (Hb n); [|reflexivity]. apply (in_cn k); [rewrite Ec; now left|exact Nk].
        * apply L1. intros z Pz. apply Hb. eapply cn_incl; [|exact Pz]. rewrite Ec. apply incl_tl, incl_refl.
      + intros k2 I2. split; [|now apply Sub]. rewrite Ec in I2. destruct I2 as [<-|I2].
        * exists n, (CEntry (hkey k) tr hr), r. split; [exact Nk|]. split; [exact Here|]. split; [exact Pu|]. split; [reflexivity|]. split; [exact A1|].
          split; [rewrite Pk; exact P|]. split; [exact A3|exact Sub].
        * apply (cov_agree tab1); [|apply (L2 k2 I2)]. intros z Pz. apply Other. eapply cn_incl; [exact (Ccl k2 I2)|exact Pz]. }
  destruct (tab (path, NForkL n)) as [e|] eqn:Te.
  - destruct (vkey_same eqE eqD (hkey k) (ce_arg e) && forallb (cholds (eqL eqE) eqD st) (ce_seen e)) eqn:Sm.
    + apply andb_true_iff in Sm. destruct Sm as (Sk & Hs). apply vkey_same_eq in Sk. apply has_cheld in Hs. injection H as <- <- <- <- <-.
      exact (hit_run k r st tab n e Be Nk Te Sk Hs).
    + apply Rr; [|exact H]. intros Ik. destruct (known_holds k r st tab Be Ik) as (n' & e' & Nk' & Te' & Ka & Hs).
      assert (n' = n) by congruence. subst n'. assert (e' = e) by congruence. subst e'.
      apply has_cheld in Hs. unfold cheld in Hs. rewrite Hs, <- Ka, vkey_same_refl in Sm. discriminate.
  - apply Rr; [|exact H]. intros Ik. destruct (known_holds k r st tab Be Ik) as (n' & e' & Nk' & Te' & _). congruence.
Qed.

(** A stage: a call, or nothing. *)
Lemma stage_run fuel nl lim a n t r st tab hr st' tr tab' lg : side_runs fuel -> pstage nl lim a n t r ->
  (nl = None -> oroot n ++ snames a = []) -> uniq (oroot n ++ snames a ++ tnames t) ->
  (forall k2, In k2 (pcalls nl lim a n t) -> k_name k2 <> None) -> tab_ok tab -> has st (scells a) -> has st (tcells t) ->
  agree (oroot n ++ snames a) st tab ->
  v_stage fuel nl lim (shandle a) n (thandle t) st tab = Ok (hr, st', tr, tab', lg) ->
  after (pcalls nl lim a n t) (scells a ++ tcells t) r st tab hr st' tr tab' lg 0 /\ left_tab (pcalls nl lim a n t) tab tr tab'.
Proof using other Q_closed Q_cov Q_cells.
  intros IH. unfold pstage, pcalls, pnext, pdefault, v_stage. intros S Cl Un Na To Hs Ht Ag H. destruct nl as [lev|].
  - destruct (c2 lev lim).
    + apply (memo_run fuel (a, lev, n, t, lim)); auto. constructor; auto.
      * unfold nk, k_name, k_stack, k_acc. cbn [fst snd]. now rewrite <- app_assoc.
      * apply has_app. auto.
    + inv H. split; [|split; [intros b _; reflexivity|intros k2 []]].
      constructor; [reflexivity|apply has_app; auto|apply incl_nil_l|intros b _; reflexivity|intros b _; reflexivity|exact To|cbn; lia].
  - inv H. split; [|split; [intros b _; reflexivity|intros k2 []]].
    constructor; [reflexivity|apply has_app; split; [apply has_nil|exact Ht]|apply incl_nil_l|intros b _; reflexivity|intros b _; reflexivity|exact To|cbn; lia].
Qed.
Lemma side_run fuel : side_runs fuel.
Proof using other Q_closed Q_cov Q_cells.
  induction fuel as [|fuel IH]; intros k r st tab hr st' tr tab' lg Be H; [discriminate|].
  pose proof H as H'. apply body_run in H.
  destruct H as (vec & nl & s1 & tr1 & sh & fl2 & fn2 & sm & st2 & tr2 & tab2 & lg2 & ht & st3 & tr3 & tr4 & lg4 & H1 & H2 & H3 & H4 & -> & ->).
  pose proof Be as [Pu Un Na To Hc Ag]. pose proof (parts_of _ _ Pu) as [_ Pn Pt Ps Pa _].
  destruct (body_pure _ _ Pu) as (vec' & nl' & a1 & r1 & t & N1 & S1 & B & S2 & Ec).
  apply has_app in Hc. destruct Hc as [Hcs Hca].
  apply next_step in H1. destruct H1 as (_ & _ & _ & T1 & P1).
  destruct (P1 st (k_stack k) T1 Hcs eq_refl) as (o & a1' & N1' & X & I1 & I1'). rewrite N1 in N1'. injection N1' as <- <-. injection X as -> -> ->.
  destruct (next_parts _ _ _ _ N1) as (Sn & _ & Cl). destruct (pstage_part _ _ _ _ _ _ S1 Cl) as (Cl1 & Pn1 & Pt1 & Is1 & It1).
  destruct (mkb_cells _ _ _ _ _ B) as (M1 & M2 & M3). destruct (pstage_part _ _ _ _ _ _ S2 Cl1) as (_ & Pn2 & Pt2 & Is2 & It2).
  set (C1 := pcalls nl' (k_level k) a1 (as_name (k_stack k)) (side_lf vec')) in *.
  set (C2 := pcalls (r_level r1) (k_max k) (r_stack r1) (r_name r1) t) in *.
  assert (Nk1 : forall z, cnt z (nk k) = cnt z (oroot (k_name k)) + cnt z (cn C1) + cnt z (cn C2) + cnt z (nr r)).
  { intros z. specialize (Pn z). rewrite Ec, cn_cons, cn_app, !cnt_app in Pn. lia. }
  assert (Nk2 : forall z, cnt z (nk k) + cnt z (tnames (k_acc k)) <= 1). { intros z. specialize (Un z). now rewrite cnt_app in Un. }
  assert (Nk3 : forall z, cnt z (nk k) = cnt z (oroot (k_name k)) + cnt z (oroot (as_name (k_stack k)) ++ snames a1)).
  { intros z. unfold nk. rewrite Sn, !cnt_app. lia. }
  rewrite shandle_name in H2.
  apply (stage_run fuel _ _ _ _ _ r1 _ _ _ _ _ _ _ IH S1 Cl) in H2; auto; try apply has_nil.
  2: { intros z. rewrite app_assoc, cnt_app. specialize (Nk2 z). specialize (Nk3 z). change (tnames (side_lf vec')) with (@nil name). cbn. lia. }
  2: { intros k2 I2. apply Na. rewrite Ec. right. apply in_or_app. now left. }
  2: { eapply has_incl; eauto. }
  2: { eapply agree_sub; [exact Ag|]. intros z. specialize (Nk3 z). lia. }
  destruct H2 as ([A1 A2 A3 A4 A5 A6 A7] & [L1 L2]). fold C1 in A4, A7, L1, L2. unfold hres in A1. injection A1 as -> -> -> ->.
  apply has_app in A2. destruct A2 as [A2s A2t].
  apply mkb_step in H3. destruct H3 as (U3 & T3 & P3).
  assert (Hca2 : has st2 (tcells (k_acc k))). { eapply keep_t; [exact A4|exact Hca|]. intros z. specialize (Nk1 z). specialize (Nk2 z). lia. }
  assert (T1n : forall z, cnt z (tnames (r_tree r1)) = cnt z (cn C1)). { intros z. rewrite Pt1. change (tnames (side_lf vec')) with (@nil name). reflexivity. }
  specialize (T3 _ _ eq_refl eq_refl A2t Hca2 ltac:(intros z; rewrite cnt_app, T1n; specialize (Nk1 z); specialize (Nk2 z); lia)).
  assert (Hr13 : has st3 (tcells (r_tree r1))). { eapply keep_t; [exact U3|exact A2t|]. intros z. rewrite T1n. specialize (Nk1 z). specialize (Nk2 z). lia. }
  assert (Hca3 : has st3 (tcells (k_acc k))). { eapply keep_t; [exact U3|exact Hca2|]. intros z. specialize (Nk1 z). specialize (Nk2 z). lia. }
  destruct (P3 st3 _ _ _ T3 Hr13 Hca3 eq_refl eq_refl B) as (-> & Ct & I3).
  assert (Nr1 : forall z, cnt z (nr r1) = cnt z (cn C2) + cnt z (nr r)) by exact Pn2.
  apply (stage_run fuel _ _ _ _ _ r _ _ _ _ _ _ _ IH S2 Cl1) in H4; auto.
  2: { intros z. rewrite app_assoc, cnt_app, M1, T1n. change (oroot (r_name r1) ++ snames (r_stack r1)) with (nr r1). specialize (Nr1 z). specialize (Nk1 z). specialize (Nk2 z). lia. }
  2: { intros k2 I2. apply Na. rewrite Ec. right. apply in_or_app. now right. }
  2: { eapply keep_s; [exact U3|exact A2s]. }
  2: { eapply (agree_step _ (oroot (k_name k)) [] st2 st3 tab2 tab2); [|exact U3|intros b _; reflexivity| |].
       - eapply (agree_step _ (cn C1) (cn C1) st st2 tab tab2); [|exact A4|exact L1| |].
         + eapply agree_sub; [exact Ag|]. intros z. change (oroot (r_name r1) ++ snames (r_stack r1)) with (nr r1). specialize (Nr1 z). specialize (Nk1 z). lia.
         + intros z. change (oroot (r_name r1) ++ snames (r_stack r1)) with (nr r1). specialize (Nr1 z). specialize (Nk1 z). specialize (Nk2 z). lia.
         + intros z. change (oroot (r_name r1) ++ snames (r_stack r1)) with (nr r1). specialize (Nr1 z). specialize (Nk1 z). specialize (Nk2 z). lia.
       - intros z. change (oroot (r_name r1) ++ snames (r_stack r1)) with (nr r1). specialize (Nr1 z). specialize (Nk1 z). specialize (Nk2 z). lia.
       - intros z. left. reflexivity. }
  destruct H4 as ([B1 B2 B3 B4 B5 B6 B7] & [L3 L4]). fold C2 in B4, B7, L3, L4.
  assert (U : upto (cn (all_calls k)) st st').
  { eapply (upto_trans2 _ (oroot (k_name k) ++ cn C1) (cn C2)); [eapply (upto_trans2 _ (cn C1) (oroot (k_name k)))|exact B4| |]; [exact A4|exact U3| | | |];
      intros z; rewrite ?Ec, ?cn_cons, ?cn_app, !cnt_app; lia. }
  pose proof (keep_k _ _ _ _ _ Be U) as Kk.
  assert (Ht : has st' (tr1 ++ tr2 ++ tr3 ++ tr4)).
  { pose proof (proj1 (has_app _ _ _) Kk) as [Ks Ka]. pose proof (proj1 (has_app _ _ _) B2) as [Rs Rt].
    apply has_app. split; [eapply has_incl; [exact I1|exact Ks]|]. apply has_app. split; [|apply has_app; split].
    - eapply has_incl; [exact A3|]. apply has_app. split; [apply has_app; split; [eapply has_incl; [exact I1'|exact Ks]|apply has_nil]|].
      apply has_app. split; [eapply has_incl; [eapply incl_tran; [exact Is1|exact I1']|exact Ks]|eapply has_incl; [eapply incl_tran; [exact M2|exact It2]|exact Rt]].
    - eapply has_incl; [eapply incl_tran; [exact I3|exact It2]|exact Rt].
    - eapply has_incl; [exact B3|]. apply has_app. split; [|exact B2]. apply has_app. split.
      + eapply has_incl; [eapply incl_tran; [exact Is1|exact I1']|exact Ks].
      + eapply has_incl; [exact It2|exact Rt]. }
  destruct (side_ok _ _ _ _ _ _ _ _ _ _ _ _ _ To H') as (_ & ks & P). destruct (P st' Ht k r eq_refl Kk Pu) as (_ & _ & _ & Inc).
  split; [|split; [exact Ht|]].
  - constructor; auto.
    + intros b Hb. rewrite (B5 b), (U3 b), (A5 b); [reflexivity| | |].
      * intros hk z I. apply Hb. right. apply in_or_app. now left.
      * destruct (k_name k) as [z|] eqn:Nz; [|right; reflexivity]. destruct b as [p y]. cbn [fst snd oroot].
        destruct (list_eq_dec name_eq_dec p path) as [->|D]; [right|left; exact D].
        apply cnt_zero. intros [->|[]]. refine (Hb _ y (or_introl eq_refl) _ eq_refl). reflexivity.
      * intros hk z I. apply Hb. right. apply in_or_app. now right.
    + rewrite Ec. cbn [length filter]. rewrite filter_app, !app_length. destruct (fresh k); cbn [length]; rewrite ?app_length; lia.
  - intros C EC. rewrite Ec in EC. injection EC as <-. split; [|cbn [length]; rewrite filter_app, !app_length; lia]. split.
    + eapply (tupto_trans _ (cn C1) (cn C2)); [exact L1|exact L3| |]; intros z; rewrite cn_app, cnt_app; lia.
    + assert (Keep : forall z, 0 < cnt z (cn C1) -> tab' (path, NForkL z) = tab2 (path, NForkL z)).
      { intros z Pz. apply (tupto_at (cn C2)); [exact L3|]. specialize (Nk1 z). specialize (Nk2 z). lia. }
      intros k2 I2. apply in_app_or in I2. destruct I2 as [I2|I2].
      * destruct (L2 k2 I2) as [V1 V2]. split.
        -- apply (cov_agree tab2); [|exact V1]. intros z Pz. apply Keep. eapply cn_incl; [exact (pcalls_closed _ _ _ _ _ _ S1 k2 I2)|exact Pz].
        -- eapply inseen_agree; [|apply incl_appr, incl_appl, incl_refl|exact V2]. intros z Nz. apply Keep. eapply in_cn; eauto.
      * destruct (L4 k2 I2) as [V1 V2]. split; [exact V1|]. eapply inseen_agree; [reflexivity|apply incl_appr, incl_appr, incl_appr, incl_refl|exact V2].
Qed.

(** A whole conversion. *)
Definition v_side_from (k : nat) (s : sastack E level) : side_vm (sraz_tree E M) :=
  let nm := sa_name s in
  trk ' (o, s') <- v_next_archive s;
  match o with
  | None => v_mk_raz_tree None
  | Some (vec, None) => trk t <- v_leaf (g vec) None; v_mk_raz_tree (Some t)
  | Some (vec, Some lev) =>
      trk first_tree <- v_leaf (g vec) None;
      trk ' (s2, l, n, t) <- v_from_memo eqE eqD (s', lev, nm, first_tree, u32_max)
        (v_side k s' lev nm first_tree u32_max);
      trk _ <- v_lift (assert "memo_from: l" (match l with None => true | _ => false end));
      trk _ <- v_lift (assert "memo_from: n" (match n with None => true | _ => false end));
      trk _ <- v_lift (assert "memo_from: s" (sa_is_empty s2));
      v_mk_raz_tree (Some t)
  end.
Notation from := (from c2 side_chk side_lf side_mkb).
Notation qof := (qof c2 side_chk side_lf side_mkb).
Definition left_by a st' tab' : Prop := forall k, In k (qof a) -> cov tab' k /\ forall r, pure k = Ok r -> has st' (tcells (r_tree r)).
Lemma from_run fuel a (rt : raz_tree E M) st tab x st' tr tab' lg : from a = Ok rt -> (forall k, In k (qof a) -> k_name k <> None) -> uniq (cn (qof a)) ->
  tab_ok tab -> has st (scells a) -> agree (cn (qof a)) st tab -> v_side_from fuel (shandle a) st tab = Ok (x, st', tr, tab', lg) ->
  tab_ok tab' /\ tupto (cn (qof a)) tab tab' /\ left_by a st' tab' /\ length lg <= length (filter fresh (qof a)) /\ quiet lg st st' /\
  rtrep (within path st') x rt.
Proof using other Q_closed Q_cov Q_cells.
  intros Fr Na Un To Hs Ag H. unfold v_side_from in H. vstep H x1 st1 tr1 tab1 lg1 H1. destruct x1 as [o s1].
  apply next_step in H1. destruct H1 as (-> & -> & -> & T1 & P1). destruct (P1 st a T1 Hs eq_refl) as (o' & a1 & N1 & X & _ & I1). injection X as -> ->.
  apply next_cases in N1. cbn [app].
  assert (Nil : forall o l, archived a = None -> has st (otcells o) -> mk_raz_tree o = Ok rt -> (v_mk_raz_tree (ohandle path o) : side_vm _) st tab = Ok (x, st', l, tab', lr) ->
    tab_ok tab' /\ tupto (cn (qof a)) tab tab' /\ left_by a st' tab' /\ length lr <= length (filter fresh (qof a)) /\ quiet lr st st' /\
    rtrep (within path st') x rt).
  { intros o l Ar Ho Mk R. pose proof (mk_step _ _ _ _ _ _ _ _ _ R Ho Mk) as Rr. apply (v_mk_Ok eqE eqD) in R. destruct R as (-> & -> & ->). unfold left_by, MemoFromWork.qof, top_key. rewrite Ar.
    split; [exact To|]. split; [intros b _; reflexivity|]. split; [intros k []|]. split; [cbn; lia|]. split; [intros b _; reflexivity|exact Rr]. }
  destruct N1 as [(-> & -> & ->)|[(-> & Ar & Cu & ->)|(m & v & n & -> & Ar & ->)]].
  - refine (Nil None _ eq_refl (has_nil _) _ H). exact Fr.
  - vstep H hl st5 tr5 tab5 lg5 H5. rewrite v_leaf_eq in H5. injection H5 as <- <- <- <- <-. refine (Nil (Some (side_lf (current a))) _ Ar (has_nil _) _ H).
    unfold MemoFrom.from, top_key, direct in Fr. rewrite Ar in Fr. destruct (current a); [now elim Cu|exact Fr].
  - clear Nil. vstep H hl st5 tr5 tab5 lg5 H5. rewrite v_leaf_eq in H5. injection H5 as <- <- <- <- <-. cbn [app].
    vstep H x6 st6 tr6 tab6 lg6 H6. destruct x6 as [[[s2 l] nn] ht]. vstep H u1 st7 tr7 tab7 lg7 H7. apply v_lift_Ok in H7. destruct H7 as (_ & -> & -> & -> & ->).
    vstep H u2 st7 tr7 tab7 lg7 H7. apply v_lift_Ok in H7. destruct H7 as (_ & -> & -> & -> & ->).
    vstep H u3 st7 tr7 tab7 lg7 H7. apply v_lift_Ok in H7. destruct H7 as (_ & -> & -> & -> & ->).
    pose proof H as Hmk.
    apply (v_mk_Ok eqE eqD) in H. destruct H as (-> & -> & ->). cbn [app]. rewrite app_nil_r. rewrite shandle_name in H6.
    assert (Tk : top_key side_lf a = Some (AStack v n, m, as_name a, side_lf (current a), u32_max)) by (unfold top_key; now rewrite Ar).
    unfold MemoFrom.from in Fr. unfold left_by, MemoFromWork.qof in *. rewrite Tk in *. set (k := (AStack v n, m, as_name a, side_lf (current a), u32_max)) in *.
    apply bind_Ok in Fr. destruct Fr as (r & Pu & Fi). pose proof (parts_of _ _ Pu) as [Pcl Pn Pt Ps Pa Pc].
    assert (Lr : r_level r = None). { destruct r as [[[s2' [l'|]] n'] t']; [discriminate Fi|reflexivity]. }
    assert (Nk : forall z, cnt z (nk k) = cnt z (cn (all_calls k))). { intros z. rewrite Pn, (Pcl Lr), cnt_nil. lia. }
    assert (Be : before k r st tab).
    { constructor; auto.
      - intros z. rewrite cnt_app, Nk. change (tnames (k_acc k)) with (@nil name). rewrite cnt_nil. specialize (Un z). lia.
      - apply has_app. split; [eapply has_incl; [exact I1|exact Hs]|apply has_nil].
      - eapply agree_sub; [exact Ag|]. intros z. rewrite Nk. lia. }
    apply (memo_run fuel k r) in H6; [|apply side_run|exact Be]. destruct H6 as ([A1 A2 A3 A4 A5 A6 A7] & L1 & L2).
    assert (Rr : rtrep (within path st6) x rt).
    { injection A1 as _ _ _ ->. refine (mk_step (Some (r_tree r)) rt _ _ _ _ _ _ _ Hmk (proj2 (proj1 (has_app _ _ _) A2)) _).
      destruct r as [[[s2' l'] n'] t']. unfold finish in Fi. do 3 (apply bind_Ok in Fi; destruct Fi as (? & _ & Fi)). exact Fi. }
    split; [exact A6|]. split; [exact L1|]. split; [|split; [exact A7|split; [exact A5|exact Rr]]].
    intros k2 I2. split; [apply (L2 k2 I2)|]. intros r2 P2. destruct (Pc k2 r2 I2 P2) as (_ & _ & _ & W). apply has_app in A2. eapply has_incl; [exact W|apply A2].
Qed.
End Run.

(** ** Histories *)
Section Hist.
Notation from := (from c2 side_chk side_lf side_mkb).
Notation qof := (qof c2 side_chk side_lf side_mkb).
Hypothesis other : q <> path.
Hypothesis names_of : forall s (rt : raz_tree E M), from s = Ok rt -> Permutation (map k_name (qof s)) (MemoFromWork.pnames s).
Notation event := (cevent elem rdata vkey (sastack E level) (sraz_tree E M)).
Definition last_of (ws : list (astack E level)) : list key := match ws with [] => [] | w :: _ => qof w end.
Definition hinv (h : list event) (ws : list (astack E level)) tab : Prop :=
  tab_ok tab /\
  (forall b e, tab b = Some e -> exists u m, In u ws /\ b = (path, NForkL m) /\ has_point m (as_abs u)) /\
  match h, ws with e :: _, w :: _ => left_by w (c_after e) tab | [], [] => True | _, _ => False end.
Lemma uniq_cn C : NoDup (map k_name C) -> uniq (cn C).
Proof.
  induction C as [|k C IH]; intros Nd z; [cbn; lia|]. cbn [map] in Nd. inversion Nd as [|? ? Ni Nd']; subst. rewrite cn_cons, cnt_app. specialize (IH Nd' z).
  destruct (k_name k) as [n|] eqn:Nk; [|cbn; lia]. cbn [oroot]. unfold cnt at 1. cbn [count_occ]. destruct (name_eq_dec n z) as [->|]; [|cbn; lia].
  enough (cnt z (cn C) = 0) by (cbn; lia). apply cnt_zero. intros I. apply Ni. unfold cn in I. apply in_flat_map in I. destruct I as (k2 & I2 & I).
  destruct (k_name k2) as [n2|] eqn:N2; [|contradiction]. destruct I as [->|[]]. apply in_map_iff. eauto.
Qed.
Lemma step h ws tab k w (rt : raz_tree E M) st x st' tr tab' lg s : hinv h ws tab ->
  Forall (fun w => exists t : raz_tree E M, from w = Ok t) ws -> from w = Ok rt -> orderly_points (map as_abs (w :: ws)) ->
  match h with [] => True | e :: _ => forall n, st (path, n) = c_after e (path, n) end ->
  stack_reads (within q st) s w -> v_side_from k s st tab = Ok (x, st', tr, tab', lg) ->
  hinv (CEvent st s x st' lg :: h) (w :: ws) tab' /\ length lg <= length (filter (MemoTwo.fresh (from_same eqE eqD) (last_of ws)) (qof w)) /\ quiet lg st st' /\
  rtrep (within path st') x rt.
Proof using other names_of.
  intros (To & Us & La) Fh Fw Or Un Sr H. cbn [map orderly_points] in Or. destruct Or as (_ & Na & Nd & Nn).
  apply stack_reads_rep, stack_homed in Sr. destruct Sr as [-> Hs]. pose proof (names_of _ _ Fw) as Pm.
  assert (Pt : forall n, 0 < cnt n (cn (qof w)) -> has_point n (as_abs w)).
  { intros n I. apply cnt_In in I. apply in_flat_map in I. destruct I as (k2 & I2 & I). destruct (k_name k2) as [n2|] eqn:N2; [|contradiction]. destruct I as [->|[]].
    apply (Permutation_in _ Pm), in_map_iff. eauto. }
  set (st0 := match h with [] => st | e :: _ => c_after e end).
  assert (St0 : forall n, st (path, n) = st0 (path, n)) by (unfold st0; destruct h; auto).
  assert (Qh : forall k, In k (last_of ws) -> cov tab k /\ forall r, pure k = Ok r -> has st0 (tcells (r_tree r))).
  { unfold st0. destruct h as [|e h], ws as [|p ws]; try contradiction. exact La. }
  assert (Qc : forall k, In k (last_of ws) -> incl (all_calls k) (last_of ws)).
  { destruct ws as [|p ws]; [intros ? []|]. inversion Fh as [|? ? (tp & Fp) _]; subst. exact (qof_closed _ _ _ _ p tp Fp). }
  apply (from_run (last_of ws) tab st0 other Qc (fun k I => proj1 (Qh k I)) (fun k r I => proj2 (Qh k I) r) k w rt) in H; auto.
  - destruct H as (To' & Tu & Lb & Lg & Qu & Rr). split; [|auto]. split; [exact To'|]. split; [|exact Lb].
    intros b e T. destruct b as [p z].
    assert (X : (exists n, 0 < cnt n (cn (qof w)) /\ (p, z) = (path, NForkL n)) \/ tab' (p, z) = tab (p, z)).
    { destruct (list_eq_dec name_eq_dec p path) as [->|D]; [|right; apply Tu; congruence].
      destruct (match z return option name with NForkL n => Some n | _ => None end) as [n|] eqn:Z; [|right; apply Tu; intros n _ Q; injection Q as ->; discriminate Z].
      destruct z; try discriminate Z. injection Z as ->.
      destruct (lt_dec 0 (cnt n (cn (qof w)))) as [L|L]; [left; eauto|]. right. apply Tu. intros m Hm [= <-]. contradiction. }
    destruct X as [(n & L & X)|X].
    + exists w, n. split; [now left|]. split; [exact X|now apply Pt].
    + rewrite X in T. destruct (Us _ _ T) as (u & m & Iu & R). exists u, m. split; [now right|exact R].
  - intros k2 I2 N2. assert (J : In None (MemoFromWork.pnames w)) by (apply (Permutation_in _ Pm), in_map_iff; eauto).
    unfold MemoFromWork.pnames in J. apply in_map_iff in J. destruct J as (p & E1 & I). exact (Na p I E1).
  - apply uniq_cn. apply (Permutation_NoDup (Permutation_sym Pm)). exact Nd.
  - intros z L. split; [reflexivity|]. split; [apply St0|]. intros e T. destruct (Us _ _ T) as (u & m & Iu & Eb & Hu). injection Eb as <-.
    destruct ws as [|p ws]; [contradiction|]. cbn [map] in Nn. destruct (Nn z (Pt z L)) as [Hp|Hp].
    + inversion Fh as [|? ? (tp & Fp) _]; subst. apply (Permutation_in _ (Permutation_sym (names_of _ _ Fp))) in Hp. apply in_map_iff in Hp. destruct Hp as (kp & E1 & I). cbn [last_of]. eauto.
    + exfalso. apply (Hp (as_abs u)); [|exact Hu]. change (In (as_abs u) (map as_abs (p :: ws))). now apply in_map.
Qed.
Lemma history h tab : cran v_side_from h tab -> forall ws, Forall2 (fun e w => stack_reads (within q (c_before e)) (c_given e) w) h ws ->
  Forall (fun w => exists t : raz_tree E M, from w = Ok t) ws -> orderly_points (map as_abs ws) -> cundisturbed path h -> hinv h ws tab.
Proof using other names_of.
  induction 1 as [|h tab k st x y st' tr tab' lg R IH H]; intros ws F2 Fw Or Un.
  - inversion F2; subst. split; [discriminate|]. split; [discriminate|exact I].
  - inversion F2 as [|? w ? ws' Sr F2']; subst. inversion Fw as [|? ? (rt & Fr) Fw']; subst. cbn [cundisturbed] in Un. destruct Un as [Un1 Un2].
    cbn [c_before c_given] in *. pose proof Or as Or'. cbn [map orderly_points] in Or'. destruct Or' as (Or' & _).
    refine (proj1 (step h ws' tab k w rt st y st' tr tab' lg x (IH ws' F2' Fw' Or' Un1) Fw' Fr Or _ Sr H)). destruct h; auto.
Qed.
Lemma next_run e h tab w ws : cran v_side_from (e :: h) tab -> Forall2 (fun e w => stack_reads (within q (c_before e)) (c_given e) w) (e :: h) (w :: ws) ->
  Forall (fun w => exists t : raz_tree E M, from w = Ok t) (w :: ws) -> orderly_points (map as_abs (w :: ws)) -> cundisturbed path (e :: h) ->
  length (c_entered e) <= length (filter (MemoTwo.fresh (from_same eqE eqD) (last_of ws)) (qof w)) /\ quiet (c_entered e) (c_before e) (c_after e).
Proof using other names_of.
  intros R F2 Fw Or Un. inversion R as [|? tab0 k st x y st' tr tab' lg R0 H]; subst.
  inversion F2 as [|? ? ? ? Sr F2']; subst. inversion Fw as [|? ? (rt & Fr) Fw']; subst. cbn [cundisturbed] in Un. destruct Un as [Un1 Un2].
  cbn [c_before c_given c_entered c_after] in *. pose proof Or as Or'. cbn [map orderly_points] in Or'. destruct Or' as (Or' & _).
  assert (X : forall A B C D : Prop, A /\ B /\ C /\ D -> B /\ C) by tauto.
  refine (X _ _ _ _ (step h ws tab0 k w rt st y st' tr tab lg x (history _ _ R0 ws F2' Fw' Or' Un1) Fw' Fr Or _ Sr H)). destruct h; auto.
Qed.
Lemma results h tab : cran v_side_from h tab -> forall ws, Forall2 (fun e w => stack_reads (within q (c_before e)) (c_given e) w) h ws ->
  Forall (fun w => exists t : raz_tree E M, from w = Ok t) ws -> orderly_points (map as_abs ws) -> cundisturbed path h ->
  Forall2 (fun e w => forall rt : raz_tree E M, from w = Ok rt -> rtrep (within path (c_after e)) (c_result e) rt) h ws.
Proof using other names_of.
  induction 1 as [|h tab k st x y st' tr tab' lg R IH H]; intros ws F2 Fw Or Un.
  - inversion F2; subst. constructor.
  - inversion F2 as [|? w ? ws' Sr F2']; subst. inversion Fw as [|? ? (rt & Fr) Fw']; subst. cbn [cundisturbed] in Un. destruct Un as [Un1 Un2].
    cbn [c_before c_given] in *. pose proof Or as Or'. cbn [map orderly_points] in Or'. destruct Or' as (Or' & _).
    constructor; [|exact (IH ws' F2' Fw' Or' Un1)]. cbn [c_after c_result]. intros rt' Fr'.
    refine (proj2 (proj2 (proj2 (step h ws' tab k w rt' st y st' tr tab' lg x (history _ _ R ws' F2' Fw' Or' Un1) Fw' Fr' Or _ Sr H)))). destruct h; auto.
Qed.
End Hist.
End Side.
End Canon.

(** ** The two builders *)
Section Both.
Context {E M : Type} {RM : RazMeta E M} (eqE : forall x y : E, {x = y} + {x <> y})
  (eqD : forall x y : tree_data E M, {x = y} + {x <> y}) (q : list name) {Nsp : here}.
Notation rdata := (tree_data E M).
Notation elem := (level * list E)%type.
Notation event := (cevent elem rdata (@vkey E M) (sastack E level) (sraz_tree E M)).
Implicit Types (w : astack E level) (e : event).

Lemma v_tail_side fuel : forall s l n h mx, v_tail_from_stack eqE eqD fuel s l n h mx = v_side eqE eqD N.leb N.ltb (fun v => v) false fuel s l n h mx.
Proof. reflexivity. Qed.
Lemma v_head_side fuel : forall s l n h mx, v_head_from_stack eqE eqD fuel s l n h mx = v_side eqE eqD N.ltb N.leb (@rev E) true fuel s l n h mx.
Proof. reflexivity. Qed.
Lemma touched (lg : list (@vkey E M)) (st st' : store elem rdata) : quiet lg st st' ->
  forall b, st' b = st b \/ fst b = path /\ exists s l t m, In (s, l, Some (snd b), t, m) lg.
Proof.
  intros Qu [p z]. cbn [fst snd]. destruct (list_eq_dec name_eq_dec p path) as [->|D]; [|left; apply Qu; congruence].
  assert (X : (exists s l t m, In (s, l, Some z, t, m) lg) \/ forall hk, In hk lg -> vk_name hk <> Some z).
  { clear. induction lg as [|[[[[s l] n] t] m] lg [(s' & l' & t' & m' & I)|IH]].
    - right. intros hk [].
    - left. exists s', l', t', m'. now right.
    - destruct (oname_eq_dec n (Some z)) as [->|D]; [left; exists s, l, t, m; now left|]. right. intros hk [<-|I]; [exact D|auto]. }
  destruct X as [X|X]; [auto|]. left. apply Qu. intros hk n I N Q. injection Q as ->. exact (X hk I N).
Qed.
Lemma tail_runs_side e h tab : cran (v_from_at_tail eqE eqD) (e :: h) tab -> cran (v_side_from eqE eqD N.leb N.ltb (fun v => v) false) (e :: h) tab.
Proof. exact (fun H => H). Qed.
Lemma head_runs_side e h tab : cran (v_from_at_head eqE eqD) (e :: h) tab -> cran (v_side_from eqE eqD N.ltb N.leb (@rev E) true) (e :: h) tab.
Proof. exact (fun H => H). Qed.

Lemma tail_again w w' older a b c e hist tab : q <> path ->
  Forall (fun w => exists t : raz_tree E M, from_at_tail w = Ok t) (w' :: w :: older) ->
  orderly_points (map as_abs (w' :: w :: older)) -> as_abs w = a ++ c -> as_abs w' = b ++ c ->
  cran (v_from_at_tail eqE eqD) (e :: hist) tab -> cundisturbed path (e :: hist) ->
  Forall2 (fun e w => stack_reads (within q (c_before e)) (c_given e) w) (e :: hist) (w' :: w :: older) ->
  length (c_entered e) <= length (marks b) + seen_from_right (rev c) /\ (as_abs w' = as_abs w -> c_entered e = []) /\
  forall b, c_after e b = c_before e b \/ fst b = path /\ exists s l t m, In (s, l, Some (snd b), t, m) (c_entered e).
Proof.
  intros D Fw Or A B R Un F2.
  assert (Fw' : Forall (fun w => exists t : raz_tree E M, from tail_below tail_chk tail_lf tail_mkb w = Ok t) (w' :: w :: older)).
  { eapply Forall_impl; [|exact Fw]. intros x (t & H). exists t. now rewrite <- from_tail_eq. }
  destruct (next_run eqE eqD q N.leb N.ltb (fun v => v) false D
    (qof_names tail_below tail_chk tail_lf tail_mkb tsz tb_trans tc_below tl_size tm_size) e hist tab w' (w :: older) R F2 Fw' Or Un) as [Le Qu].
  cbn [last_of] in Le. inversion Fw' as [|? ? (t' & Ft') Fw2]; subst. inversion Fw2 as [|? ? (t & Ft) _]; subst.
  split; [|split; [|exact (touched _ _ _ Qu)]].
  - rewrite tail_records. etransitivity; [exact Le|].
    exact (rerun_le eqE eqD tail_below tail_chk tail_lf tail_mkb tsz tb_trans tb_ntrans tc_below tl_size tm_size w w' t t' a b c Ft Ft' A B).
  - intros Q. pose proof (as_abs_inj _ _ _ Q eq_refl). subst w'.
    change (length (c_entered e) <= length (filter (MemoTwo.fresh (from_same eqE eqD) (qof tail_below tail_chk tail_lf tail_mkb w)) (qof tail_below tail_chk tail_lf tail_mkb w))) in Le.
    rewrite (rerun_same eqE eqD _ _ _ _ w t Ft) in Le. destruct (c_entered e); [reflexivity|cbn in Le; lia].
Qed.
Lemma head_again w w' older a b c e hist tab : q <> path ->
  Forall (fun w => exists t : raz_tree E M, from_at_head w = Ok t) (w' :: w :: older) ->
  orderly_points (map as_abs (w' :: w :: older)) -> as_abs w = a ++ c -> as_abs w' = b ++ c ->
  cran (v_from_at_head eqE eqD) (e :: hist) tab -> cundisturbed path (e :: hist) ->
  Forall2 (fun e w => stack_reads (within q (c_before e)) (c_given e) w) (e :: hist) (w' :: w :: older) ->
  length (c_entered e) <= length (marks b) + seen_from_left 0%N c /\ (as_abs w' = as_abs w -> c_entered e = []) /\
  forall b, c_after e b = c_before e b \/ fst b = path /\ exists s l t m, In (s, l, Some (snd b), t, m) (c_entered e).
Proof.
  intros D Fw Or A B R Un F2.
  assert (Fw' : Forall (fun w => exists t : raz_tree E M, from head_below head_chk head_lf head_mkb w = Ok t) (w' :: w :: older)).
  { eapply Forall_impl; [|exact Fw]. intros x (t & H). exists t. now rewrite <- from_head_eq. }
  destruct (next_run eqE eqD q N.ltb N.leb (@rev E) true D
    (qof_names head_below head_chk head_lf head_mkb tsz hb_trans hc_below hl_size hm_size) e hist tab w' (w :: older) R F2 Fw' Or Un) as [Le Qu].
  cbn [last_of] in Le. inversion Fw' as [|? ? (t' & Ft') Fw2]; subst. inversion Fw2 as [|? ? (t & Ft) _]; subst.
  split; [|split; [|exact (touched _ _ _ Qu)]].
  - rewrite (head_records c (levels_suffix w' t' b c Ft' B)). etransitivity; [exact Le|].
    exact (rerun_le eqE eqD head_below head_chk head_lf head_mkb tsz hb_trans hb_ntrans hc_below hl_size hm_size w w' t t' a b c Ft Ft' A B).
  - intros Q. pose proof (as_abs_inj _ _ _ Q eq_refl). subst w'.
    change (length (c_entered e) <= length (filter (MemoTwo.fresh (from_same eqE eqD) (qof head_below head_chk head_lf head_mkb w)) (qof head_below head_chk head_lf head_mkb w))) in Le.
    rewrite (rerun_same eqE eqD _ _ _ _ w t Ft) in Le. destruct (c_entered e); [reflexivity|cbn in Le; lia].
Qed.
Lemma use_tail_again w w' older l l' ls a b c e hist tab : q <> path ->
  Forall2 stack_of (w' :: w :: older) (l' :: l :: ls) -> orderly_points (l' :: l :: ls) -> l = a ++ c -> l' = b ++ c ->
  Forall (fun w => exists t : raz_tree E M, from_at_tail w = Ok t) (w' :: w :: older) ->
  cran (v_from_at_tail eqE eqD) (e :: hist) tab -> cundisturbed path (e :: hist) ->
  Forall2 (fun e w => stack_reads (within q (c_before e)) (c_given e) w) (e :: hist) (w' :: w :: older) ->
  length (c_entered e) <= length (marks b) + seen_from_right (rev c) /\ (l' = l -> c_entered e = []) /\
  forall b, c_after e b = c_before e b \/ fst b = path /\ exists s l t m, In (s, l, Some (snd b), t, m) (c_entered e).
Proof.
  intros D St Or A B Fw R Un F2. pose proof (stacks_abs _ _ St) as Q. rewrite <- Q in Or. cbn [map] in Q. injection Q as Q1 Q2 _.
  rewrite <- Q2 in A. rewrite <- Q1 in B. rewrite <- Q1, <- Q2. exact (tail_again w w' older a b c e hist tab D Fw Or A B R Un F2).
Qed.
Lemma use_head_again w w' older l l' ls a b c e hist tab : q <> path ->
  Forall2 stack_of (w' :: w :: older) (l' :: l :: ls) -> orderly_points (l' :: l :: ls) -> l = a ++ c -> l' = b ++ c ->
  Forall (fun w => exists t : raz_tree E M, from_at_head w = Ok t) (w' :: w :: older) ->
  cran (v_from_at_head eqE eqD) (e :: hist) tab -> cundisturbed path (e :: hist) ->
  Forall2 (fun e w => stack_reads (within q (c_before e)) (c_given e) w) (e :: hist) (w' :: w :: older) ->
  length (c_entered e) <= length (marks b) + seen_from_left 0%N c /\ (l' = l -> c_entered e = []) /\
  forall b, c_after e b = c_before e b \/ fst b = path /\ exists s l t m, In (s, l, Some (snd b), t, m) (c_entered e).
Proof.
  intros D St Or A B Fw R Un F2. pose proof (stacks_abs _ _ St) as Q. rewrite <- Q in Or. cbn [map] in Q. injection Q as Q1 Q2 _.
  rewrite <- Q2 in A. rewrite <- Q1 in B. rewrite <- Q1, <- Q2. exact (head_again w w' older a b c e hist tab D Fw Or A B R Un F2).
Qed.
End Both.
