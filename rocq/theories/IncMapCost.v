(** * What a rerun of the memoised [map] over the store enters and writes. *)

From Verif Require Import Base BaseFacts Spec LevelTreeModel TreeSpec TreeProofs TreeCursorModel RazMetaModel RazModel MemoModel
  MemoSpec MemoProofs MemoCost MemoHistory RazView RazScripts RazReach StoreModel StoreSpec StoreScripts StoreProofs StoreRaz StoreHistory StoreNs
  StoreMapModel StoreMapProofs IncModel IncSpec IncProofs IncCost IncMapModel IncMapSpec IncMapProofs.

Section Tree.
Context {T A : Type} {TU : TreeUpdate A} (eqA : forall x y : A, {x = y} + {x <> y}) (q : list name) {Nsp : here}.
Hypothesis apart_ns : q <> path.
Implicit Types (st : store T A) (s : stree A) (t : tree A).
Notation held := (held eqA).
Notation hin := (handle q).
Notation hout := (handle path).
Notation cin := (cells q).
Notation cout := (cells path).

Lemma held_upto p L t : p <> path \/ apart (tnames t) L -> forall st st', upto L st st' -> held st (cells p t) -> held st' (cells p t).
Proof.
  induction t as [lv nm d l r IHl IHr] using tree_induction. intros D st st' U. rewrite !cells_eq, !held_app.
  rewrite tnames_eq in D. cbn [t_name t_left t_right] in D.
  assert (X : forall o, optP (fun t => p <> path \/ apart (tnames t) L -> forall st st', upto L st st' -> held st (cells p t) -> held st' (cells p t)) o ->
    p <> path \/ apart (otnames o) L -> held st (ocells p o) -> held st' (ocells p o)).
  { intros [x|] I D' H; [|exact H]. exact (I D' st st' U H). }
  intros (H0 & Hl & Hr). split; [|split].
  - destruct nm as [n|]; [|apply held_nil]. unfold IncProofs.held in *. cbn [forallb] in *. rewrite andb_true_r in *.
    apply holds_eq in H0. apply holds_eq. cbn [tree_look] in *. rewrite U; [exact H0|]. cbn [fst snd].
    destruct D as [D|D]; [now left|right]. destruct (D n) as [D1|D1]; [|exact D1]. exfalso. rewrite cnt_app in D1. cbn [oroot] in D1.
    unfold cnt in D1. simpl in D1. destruct (name_eq_dec n n); [discriminate|congruence].
  - apply (X l IHl); [|exact Hl]. destruct D as [D|D]; [now left|right; names].
  - apply (X r IHr); [|exact Hr]. destruct D as [D|D]; [now left|right; names].
Qed.
Lemma held_upto_o p L o : p <> path \/ apart (otnames o) L -> forall st st', upto L st st' -> held st (ocells p o) -> held st' (ocells p o).
Proof. destruct o as [t|]; [apply held_upto|]. intros. apply held_nil. Qed.

Section Map.
Variable f : A -> level -> option name -> option (tree A) -> option (tree A) -> res A.
Variable sf : A -> level -> option name -> option (stree A) -> option (stree A) -> um T A (stree A) (stree A) A.
Hypothesis agree : forall st tab d lv nm l r, held st (ocells path l) -> held st (ocells path r) ->
  exists tr, sf d lv nm (ohandle path l) (ohandle path r) st tab = (do d' <- f d lv nm l r; Ok (d', st, tr, tab, [])) /\
    forall st2, held st2 (ocells path l) -> held st2 (ocells path r) -> held st2 tr.

Definition up l (d : A) lv nm r := do d' <- f d lv nm l r; unwrap "map: Tree::new" (tree_new lv nm d' l r).
Notation fold := (m_fold_up_meta eqA up).
Notation tab := (mtab (tree A) (tree A)).
Implicit Types (tb : tab) (itb : itab A (stree A) (stree A)).

Definition urel itb tb : Prop :=
  forall n, match itb (path, n), tb n with
            | None, None => True
            | Some e, Some (k, r) => e_arg e = hin k /\ e_res e = hout r /\
                forall st, held st (e_seen e) <-> held st (cin k) /\ held st (cout r)
            | _, _ => False
            end.
(** The results on record for the branches of this tree are still there. *)
Definition fits st tb t : Prop := forall lv n d l r, In (Node lv (Some n) d l r) (subtrees t) ->
  (forall u x, l = Some u -> tb (NForkL n) = Some (u, x) -> held st (cout x)) /\
  (forall u x, r = Some u -> tb (NForkR n) = Some (u, x) -> held st (cout x)).
Definition forks (N : list name) tb tb' : Prop :=
  forall n, tb' n = tb n \/ exists m, In m N /\ (n = NForkL m \/ n = NForkR m).
Definition touched st st' (lg : list (stree A)) : Prop :=
  forall b, st' b = st b \/ fst b = path /\ exists h, In h lg /\ st_name h = Some (snd b).
Notation psound := (sound (t_map f)).

Record post t (body : tab -> res (tree A * tab * list (tree A))) tb st s' st' tr itb' lg : Prop := {
  po_run : exists t' tb' plg, body tb = Ok (t', tb', plg) /\ s' = hout t' /\ lg = map hin plg /\ urel itb' tb' /\ psound tb' /\
    t_map f t = Ok t' /\ forks (tnames t) tb tb' /\ held st' (cout t') /\
    (forall st2, held st2 tr <-> held st2 (cin t) /\ held st2 (cout t'));
  po_upto : upto (tnames t) st st';
  po_touched : touched st st' lg
}.

Lemma touched_refl st lg : touched st st lg.
Proof. intros b. now left. Qed.
Lemma touched_trans st st1 st2 lg : touched st st1 lg -> touched st1 st2 lg -> touched st st2 lg.
Proof. intros H1 H2 b. destruct (H2 b) as [E|E]; [|auto]. destruct (H1 b) as [E1|E1]; [|auto]. left. congruence. Qed.
Lemma touched_sub st st' lg lg' : (forall h, In h lg -> In h lg') -> touched st st' lg -> touched st st' lg'.
Proof. intros S H b. destruct (H b) as [E|(Ep & h & I & E)]; [auto|]. right. split; [exact Ep|]. eauto. Qed.

(** A call is answered from the one table exactly when it is from the other. *)
Lemma call_sim n t body ibody itb tb st s' st' tr itb' lg :
  (forall m, n = Some m -> forall x, tb m = Some (t, x) -> held st (cout x)) ->
  (forall m, n = Some m -> exists p, m = NForkL p \/ m = NForkR p) ->
  held st (cin t) -> urel itb tb -> psound tb ->
  (forall s' st' tr itb' lg, ibody st itb = Ok (s', st', tr, itb', lg) -> post t body tb st s' st' tr itb' lg) ->
  u_memo_opt eqA n (hin t) ibody st itb = Ok (s', st', tr, itb', lg) ->
  exists t' tb' plg, memo_opt (tree_same eqA) n t body tb = Ok (t', tb', plg) /\ s' = hout t' /\ lg = map hin plg /\
    urel itb' tb' /\ psound tb' /\ t_map f t = Ok t' /\
    (forall m, tb' m = tb m \/ Some m = n \/ exists p, In p (tnames t) /\ (m = NForkL p \/ m = NForkR p)) /\
    held st' (cout t') /\ (forall st2, held st2 tr <-> held st2 (cin t) /\ held st2 (cout t')) /\
    upto (tnames t) st st' /\ touched st st' lg.
Proof.
  intros Fit Fork Hc Rel Sd B H. destruct n as [n|]; cbn [u_memo_opt memo_opt] in *.
  2: { destruct (B _ _ _ _ _ H) as [(t' & tb' & plg & E1 & E2 & E3 & E4 & E5 & E6 & E7 & E8 & E9) U Tc].
       exists t', tb', plg. repeat (split; [assumption|]). split; [|auto].
       intros m. destruct (E7 m) as [E|E]; auto. }
  unfold u_memo in H. unfold memo.
  assert (Rr : (do ' (r, st', s0, tab', lg) <- ibody st itb; Ok (r, st', s0, i_set tab' (path, n) (Entry (hin t) s0 r), lg)) = Ok (s', st', tr, itb', lg) ->
    exists t' tb' plg, (do ' (r, tab', lg) <- body tb; Ok (r, memo_set tab' n t r, lg)) = Ok (t', tb', plg) /\ s' = hout t' /\ lg = map hin plg /\
    urel itb' tb' /\ psound tb' /\ t_map f t = Ok t' /\
    (forall m, tb' m = tb m \/ Some m = Some n \/ exists p, In p (tnames t) /\ (m = NForkL p \/ m = NForkR p)) /\
    held st' (cout t') /\ (forall st2, held st2 tr <-> held st2 (cin t) /\ held st2 (cout t')) /\
    upto (tnames t) st st' /\ touched st st' lg).
  { intros Q. apply bind_Ok in Q. destruct Q as ([[[[r st1] tr1] itb1] lg1] & Q & Z). inv Z.
    destruct (B _ _ _ _ _ Q) as [(t' & tb' & plg & E1 & E2 & E3 & E4 & E5 & E6 & E7 & E8 & E9) U Tc].
    rewrite E1. cbn [bind]. exists t', (memo_set tb' n t t'), plg. split; [reflexivity|]. split; [exact E2|]. split; [exact E3|].
    split; [|split; [|split; [exact E6|split; [|auto]]]].
    - intros m. unfold i_set, memo_set. specialize (E4 m). destruct (name_eq_dec m n) as [->|Ne].
      + destruct (loc_eq_dec (path, n) (path, n)); [|congruence]. cbn [e_arg e_res e_seen]. auto.
      + destruct (loc_eq_dec (path, m) (path, n)); [congruence|exact E4].
    - intros m k r. unfold memo_set. destruct (name_eq_dec m n); [|apply E5]. intros Z. now inv Z.
    - intros m. unfold memo_set. destruct (name_eq_dec m n) as [->|]; [auto|]. destruct (E7 m) as [E|E]; auto. }
  pose proof (Rel n) as Rn. destruct (itb (path, n)) as [e|], (tb n) as [[k' r]|] eqn:Tn; try contradiction; [|exact (Rr H)].
  destruct Rn as (Ea & Er & Es). rewrite Ea in H.
  destruct (tree_same eqA t k') eqn:Sm.
  - apply tree_same_eq in Sm. subst k'.
    assert (X : stree_same eqA (hin t) (hin t) = true) by now apply stree_same_eq. rewrite X in H.
    pose proof (Fit n eq_refl r Tn) as Ho.
    assert (Y : forallb (holds eqA st) (e_seen e) = true) by (apply Es; auto). rewrite Y in H. cbn [andb] in H. inv H.
    exists r, tb, []. split; [reflexivity|]. split; [exact Er|]. split; [reflexivity|]. split; [exact Rel|]. split; [exact Sd|].
    split; [exact (Sd _ _ _ Tn)|]. split; [auto|]. split; [exact Ho|]. split; [exact Es|]. split; [apply upto_refl|apply touched_refl].
  - destruct (stree_same eqA (hin t) (hin k') && forallb (holds eqA st) (e_seen e)) eqn:Q; [|exact (Rr H)].
    apply andb_true_iff in Q. destruct Q as [Q1 Q2]. apply stree_same_eq in Q1.
    assert (Q3 : held st (cin k')) by (apply Es; exact Q2).
    pose proof (handle_inj eqA q st t k' Q1 Hc Q3) as W. apply (tree_same_eq eqA) in W. congruence.
Qed.

Lemma sub_names lv n d l r t : In (Node lv (Some n) d l r) (subtrees t) -> In n (tnames t) /\
  (forall u, l = Some u \/ r = Some u -> forall m, In m (tnames u) -> In m (tnames t)).
Proof.
  induction t as [lv' nm' d' l' r' IHl IHr] using tree_induction. rewrite subtrees_eq, tnames_eq. cbn [t_name t_left t_right].
  intros [E|E].
  - inv E. split; [now left|]. intros u [->| ->] m Hm; cbn [oroot otnames]; apply in_or_app; right; apply in_or_app; auto.
  - apply in_app_or in E. assert (X : forall o, optP (fun t => In (Node lv (Some n) d l r) (subtrees t) -> In n (tnames t) /\
        (forall u, l = Some u \/ r = Some u -> forall m, In m (tnames u) -> In m (tnames t))) o ->
      In (Node lv (Some n) d l r) (osubtrees o) -> In n (otnames o) /\
        (forall u, l = Some u \/ r = Some u -> forall m, In m (tnames u) -> In m (otnames o))).
    { intros [x|] I Q; [exact (I Q)|contradiction]. }
    destruct E as [E|E]; [apply (X _ IHl) in E|apply (X _ IHr) in E]; destruct E as [E1 E2];
      (split; [|intros u Hu m Hm; specialize (E2 u Hu m Hm)]); apply in_or_app; right; apply in_or_app; auto.
Qed.

Lemma fits_keep st tb st' tb' t L : fits st tb t -> upto L st st' -> apart (tnames t) L -> psound tb ->
  (forall n, In n (tnames t) -> tb' (NForkL n) = tb (NForkL n) /\ tb' (NForkR n) = tb (NForkR n)) -> fits st' tb' t.
Proof.
  intros F U D Sd E lv n d l r I. destruct (sub_names _ _ _ _ _ _ I) as [In1 In2]. destruct (E n In1) as [EL ER].
  destruct (F _ _ _ _ _ I) as [FL FR]. rewrite EL, ER.
  assert (X : forall u x m, l = Some u \/ r = Some u -> tb m = Some (u, x) -> held st (cout x) -> held st' (cout x)).
  { intros u x m Hu Tm. apply (held_upto path L); [right|exact U].
    rewrite (t_map_names f u x (Sd _ _ _ Tm)). intros z. destruct (D z) as [Z|Z]; [left|now right].
    apply cnt_zero in Z. apply cnt_zero. intros Hz. apply Z. eapply In2; eauto. }
  split; intros u x Hu Tm; eapply X; eauto.
Qed.
Lemma fits_sub st tb lv nm d l r : fits st tb (Node lv nm d l r) ->
  (forall u, l = Some u \/ r = Some u -> fits st tb u).
Proof.
  intros F u Hu lv' n' d' l' r' I. apply (F lv' n' d' l' r'). rewrite subtrees_eq. right. apply in_or_app.
  destruct Hu as [->| ->]; auto.
Qed.

Definition omap (o : option (tree A)) : res (option (tree A)) :=
  match o with None => Ok None | Some x => do y <- t_map f x; Ok (Some y) end.
Lemma omap_names o o' : omap o = Ok o' -> otnames o' = otnames o.
Proof.
  destruct o as [x|]; cbn [omap]; intros H; [|now inv H]. apply bind_Ok in H. destruct H as (y & H & Z). inv Z.
  exact (t_map_names f _ _ H).
Qed.

Lemma child_sim k n o : optP (fun t => forall itb tb st s' st' tr itb' lg, held st (cin t) -> uniq (tnames t) -> urel itb tb -> psound tb ->
    fits st tb t -> u_map eqA sf k (hin t) st itb = Ok (s', st', tr, itb', lg) -> post t (fold t) tb st s' st' tr itb' lg) o ->
  (forall m, n = Some m -> exists p, m = NForkL p \/ m = NForkR p) ->
  forall itb tb st so' st' tr itb' lg,
  (forall m, n = Some m -> forall u x, o = Some u -> tb m = Some (u, x) -> held st (cout x)) ->
  (forall u, o = Some u -> fits st tb u) ->
  held st (ocells q o) -> uniq (otnames o) -> urel itb tb -> psound tb ->
  match ohandle q o with
  | None => u_ret None
  | Some t1 => upd x <- u_memo_opt eqA n t1 (u_map eqA sf k t1); u_ret (Some x)
  end st itb = Ok (so', st', tr, itb', lg) ->
  exists o' tb' plg,
    match o with
    | None => Ok (None, tb, [])
    | Some t1 => do ' (x, tab1, lg1) <- memo_opt (tree_same eqA) n t1 (fold t1) tb; Ok (Some x, tab1, lg1)
    end = Ok (o', tb', plg) /\ so' = ohandle path o' /\ lg = map hin plg /\ urel itb' tb' /\ psound tb' /\ omap o = Ok o' /\
    (forall m, tb' m = tb m \/ Some m = n \/ exists p, In p (otnames o) /\ (m = NForkL p \/ m = NForkR p)) /\
    held st' (ocells path o') /\ (forall st2, held st2 tr <-> held st2 (ocells q o) /\ held st2 (ocells path o')) /\
    upto (otnames o) st st' /\ touched st st' lg.
Proof.
  intros IH Fork itb tb st so' st' tr itb' lg Fit Fs Hc Un Rel Sd H. destruct o as [t|]; cbn [ohandle ocells otnames optP omap] in *.
  - apply u_bind_Ok in H. destruct H as (x & st1 & tr1 & itb1 & lg1 & tr2 & lg2 & H & Z & -> & ->). inv Z.
    destruct (call_sim n t (fold t) (u_map eqA sf k (hin t)) itb tb st x st' tr1 itb' lg1) as
      (t' & tb' & plg & E1 & E2 & E3 & E4 & E5 & E6 & E7 & E8 & E9 & E10 & E11); auto.
    + intros m Em y Ty. eapply Fit; eauto.
    + intros s'0 st'0 tr0 itb0 lg0 Q. eapply IH; eauto.
    + rewrite E1, E6. cbn [bind]. exists (Some t'), tb', plg. rewrite !app_nil_r. subst x. repeat (split; [assumption || reflexivity|]).
      exact E11.
  - inv H. exists None, tb, []. repeat (split; [reflexivity || assumption|]). split; [auto|]. split; [apply held_nil|].
    split; [intros st2; cbn [ocells]; split; auto using held_nil|]. split; [apply upto_refl|apply touched_refl].
Qed.

Lemma map_sim k : forall t itb tb st s' st' tr itb' lg, held st (cin t) -> uniq (tnames t) -> urel itb tb -> psound tb ->
  fits st tb t -> u_map eqA sf k (hin t) st itb = Ok (s', st', tr, itb', lg) -> post t (fold t) tb st s' st' tr itb' lg.
Proof.
  induction k as [|k IH]; intros t itb tb st s' st' tr itb' lg Hc Un Rel Sd Fit H; [discriminate|]. cbn [u_map] in H.
  pose proof (handle_look eqA q st t Hc) as Lk.
  apply u_bind_Ok in H. destruct H as ([] & st0 & tr0 & tab0 & lg0 & tr1 & lg1 & H0 & H & -> & ->). inv H0.
  apply u_bind_Ok in H. destruct H as ([[d sl] sr] & st1 & tr1' & tab1 & lg1' & tr2 & lg2 & H1 & H & -> & ->).
  unfold u_force in H1. rewrite Lk in H1. cbn [unwrap bind] in H1. inv H1.
  rewrite handle_name, handle_level in H. destruct t as [lv nm d l r]. cbn [t_level t_name t_peek t_left t_right] in *.
  apply u_bind_Ok in H. destruct H as (sl' & st2 & tr2' & tab2 & lg2' & tr3 & lg3 & H2 & H & -> & ->).
  apply u_bind_Ok in H. destruct H as (sr' & st3 & tr3' & tab3 & lg3' & tr4 & lg4 & H3 & H & -> & ->).
  apply u_bind_Ok in H. destruct H as (d' & st4 & tr4' & tab4 & lg4' & tr5 & lg5 & H4 & H & -> & ->).
  apply u_bind_Ok in H. destruct H as (o & st5 & tr5' & tab5 & lg5' & tr6 & lg6 & H5 & H & -> & ->).
  pose proof Hc as Hc'. rewrite cells_eq, !held_app in Hc'. destruct Hc' as (_ & Hl & Hr).
  pose proof Un as Un'. rewrite tnames_eq in Un'. cbn [t_name t_left t_right] in Un'.
  pose proof (fits_sub _ _ _ _ _ _ _ Fit) as Fs.
  assert (Root : forall n, nm = Some n ->
    (forall u x, l = Some u -> tb (NForkL n) = Some (u, x) -> held st1 (cout x)) /\
    (forall u x, r = Some u -> tb (NForkR n) = Some (u, x) -> held st1 (cout x))).
  { intros n ->. apply (Fit lv n d l r). rewrite subtrees_eq. now left. }
  destruct (child_sim k (fork_left nm) l) with (itb := tab1) (tb := tb) (st := st1) (so' := sl') (st' := st2) (tr := tr2') (itb' := tab2) (lg := lg2')
    as (l' & tb1 & plg1 & A1 & A2 & A3 & A4 & A5 & A6 & A7 & A8 & A9 & A10 & A11); auto; try names.
  { destruct l as [tl|]; [|exact I]. intros itb0 tb0. apply IH. }
  { intros m. destruct nm; [|discriminate]. intros [= <-]. eauto. }
  { intros m Em u x Hu Tx. destruct nm as [n|]; [|discriminate]. injection Em as <-. exact (proj1 (Root n eq_refl) u x Hu Tx). }
  assert (Hr1 : held st2 (ocells q r)) by (apply (held_upto_o q (otnames l) r (or_introl apart_ns) st1); auto).
  assert (Keep : forall m p, In p (tnames (Node lv nm d None r)) -> (m = NForkL p -> ~ nm = Some p) -> m = NForkL p \/ m = NForkR p -> tb1 m = tb m).
  { intros m p Ip Np Em. destruct (A7 m) as [E|[E|(p' & Ip' & E)]]; [exact E|exfalso..].
    - destruct nm as [n|]; [|discriminate]. injection E as ->. destruct Em as [Em|Em]; [|discriminate].
      apply (Np Em). congruence.
    - assert (p' = p) by (destruct Em, E; congruence). subst p'.
      rewrite tnames_eq in Ip. cbn [t_name t_left t_right otnames app] in Ip. apply cnt_In in Ip, Ip'.
      rewrite ?cnt_app in Ip. specialize (Un' p). rewrite !cnt_app in Un'. lia. }
  destruct (child_sim k (fork_right nm) r) with (itb := tab2) (tb := tb1) (st := st2) (so' := sr') (st' := st3) (tr := tr3') (itb' := tab3) (lg := lg3')
    as (r' & tb2 & plg2 & B1 & B2 & B3 & B4 & B5 & B6 & B7 & B8 & B9 & B10 & B11); auto; try names.
  { destruct r as [tl|]; [|exact I]. intros itb0 tb0. apply IH. }
  { intros m. destruct nm; [|discriminate]. intros [= <-]. eauto. }
  { intros m Em u x Hu Tx. destruct nm as [n|]; [|discriminate]. injection Em as <-.
    rewrite (Keep (NForkR n) n) in Tx; [|rewrite tnames_eq; now left|discriminate|now right].
    pose proof (proj2 (Root n eq_refl) u x Hu Tx) as W. revert W. apply (held_upto path (otnames l)); [right|exact A10].
    rewrite (t_map_names f u x (Sd _ _ _ Tx)). subst r. cbn [otnames] in Un'. names. }
  { intros u Hu. subst r. cbn [otnames] in *. apply (fits_keep st1 tb st2 tb1 u (otnames l)); auto.
    - names.
    - intros n Hn. assert (Hn' : In n (tnames (Node lv nm d None (Some u)))).
      { rewrite tnames_eq. cbn [t_name t_left t_right otnames app]. apply in_or_app. now right. }
      split; apply (Keep _ n); auto; [|discriminate]. intros _ ->. cbn [oroot] in Un'. specialize (Un' n). apply cnt_In in Hn.
      rewrite !cnt_app in Un'. unfold cnt in Un' at 1. simpl in Un'. destruct (name_eq_dec n n); [lia|congruence]. }
  pose proof (omap_names _ _ A6) as Nl. pose proof (omap_names _ _ B6) as Nr.
  assert (Hl2 : held st3 (ocells path l')).
  { refine (held_upto_o path (otnames r) l' _ st2 _ B10 A8). right; rewrite Nl; names. }
  subst sl' sr'. destruct (agree st3 tab3 d lv nm l' r' Hl2 B8) as (tr7 & Ef & Etr). rewrite Ef in H4.
  apply bind_Ok in H4. destruct H4 as (d2 & Ed & Z). inv Z.
  unfold u_lift in H. destruct o as [s5|]; [|discriminate]. cbn [unwrap bind] in H. inv H.
  assert (Lg : forall h, h = hin (Node lv nm d l r) \/ In h (map hin plg1) \/ In h (map hin plg2) ->
     In h ([hin (Node lv nm d l r)] ++ [] ++ map hin plg1 ++ map hin plg2 ++ [] ++ lg5' ++ [])).
  { intros h Hh. cbn [app]. destruct Hh as [->|[Hh|Hh]]; [now left|right..]; apply in_or_app; [now left|right; apply in_or_app; now left]. }
  assert (New : upto (oroot nm) st4 st' /\ touched st4 st' [hin (Node lv nm d l r)] /\ s' = hout (Node lv nm d' l' r') /\ lg5' = [] /\ itb' = tab4 /\
    (forall st2, held st2 tr5' <-> held st2 match nm with None => [] | Some n => [((path, n), (d', ohandle path l', ohandle path r'))] end) /\
    held st' match nm with None => [] | Some n => [((path, n), (d', ohandle path l', ohandle path r'))] end).
  { unfold u_tree_new in H5. destruct nm as [n|]; inv H5.
    - split; [apply write_upto|]. split; [|split; [reflexivity|split; [reflexivity|split; [reflexivity|split; [reflexivity|]]]]].
      + intros b. unfold write. destruct (loc_eq_dec b (path, n)) as [->|]; [right|now left]. split; [reflexivity|].
        eexists. split; [left; reflexivity|]. now rewrite handle_name.
      + unfold IncProofs.held. cbn [forallb]. rewrite andb_true_r. apply holds_eq. cbn [tree_look]. now rewrite write_same.
    - split; [apply upto_refl|]. split; [apply touched_refl|]. repeat (split; [reflexivity|]). apply held_nil. }
  destruct New as (U5 & T5 & Es & -> & -> & Etr5 & Hw).
  assert (Pm : t_map f (Node lv nm d l r) = Ok (Node lv nm d' l' r')).
  { cbn [t_map]. fold (omap l). fold (omap r). rewrite A6. cbn [bind]. rewrite B6. cbn [bind]. rewrite Ed. cbn [bind]. now destruct nm. }
  constructor.
  - exists (Node lv nm d' l' r'), tb2, (Node lv nm d l r :: plg1 ++ plg2).
    split; [|split; [exact Es|split; [|split; [exact B4|split; [exact B5|split; [exact Pm|split; [|split]]]]]]].
    + cbn [m_fold_up_meta]. rewrite A1. cbn [bind]. rewrite B1. cbn [bind]. unfold up at 1. rewrite Ed. cbn [bind].
      destruct nm; reflexivity.
    + cbn [app map]. now rewrite !app_nil_r, map_app.
    + intros m. rewrite tnames_eq. cbn [t_name t_left t_right].
      assert (X : forall (b : bool) o', Some m = (if b then fork_left nm else fork_right nm) ->
        exists p, In p (oroot nm ++ o') /\ (m = NForkL p \/ m = NForkR p)).
      { intros b o' E. destruct nm as [n|]; [|destruct b; discriminate]. exists n. split; [now left|]. destruct b; injection E as ->; auto. }
      destruct (B7 m) as [E|[E|(p & Ip & E)]]; [|right; exact (X false _ E)|right].
      * destruct (A7 m) as [E'|[E'|(p & Ip & E')]]; [left; congruence|right; exact (X true _ E')|right].
        exists p. split; [|exact E']. apply in_or_app. right. apply in_or_app. now left.
      * exists p. split; [|exact E]. apply in_or_app. right. apply in_or_app. now right.
    + rewrite cells_eq, !held_app. split; [exact Hw|]. split.
      * refine (held_upto_o path (oroot nm) l' _ _ _ U5 Hl2). right; rewrite Nl; names.
      * refine (held_upto_o path (oroot nm) r' _ _ _ U5 B8). right; rewrite Nr; names.
    + intros st6. rewrite !cells_eq, !held_app. rewrite A9, B9, Etr5.
      specialize (Etr st6).
      assert (Rt : match handle q (Node lv nm d l r) with TPut _ _ _ _ => [] | TCell _ a => [(a, (d, ohandle q l, ohandle q r))] end =
        match nm with None => [] | Some n => [((q, n), (d, ohandle q l, ohandle q r))] end) by now destruct nm.
      rewrite Rt. pose proof (held_nil eqA st6). tauto.
  - rewrite tnames_eq. cbn [t_name t_left t_right].
    apply (upto_trans _ _ st2); [apply (upto_sub (otnames l)); [names|exact A10]|].
    apply (upto_trans _ _ st4); [apply (upto_sub (otnames r)); [names|exact B10]|].
    apply (upto_sub (oroot nm)); [names|exact U5].
  - apply (touched_trans _ st2); [apply (touched_sub _ _ (map hin plg1)); [intros; apply Lg; auto|exact A11]|].
    apply (touched_trans _ st4); [apply (touched_sub _ _ (map hin plg2)); [intros; apply Lg; auto|exact B11]|].
    apply (touched_sub _ _ [hin (Node lv nm d l r)]); [|exact T5]. intros h [<-|[]]. apply Lg. now left.
Qed.
End Map.
End Tree.

Section Sub.
Context {A : Type} (p : list name) (f : A -> level -> option name -> option (tree A) -> option (tree A) -> res A).
Implicit Types (t : tree A).
Lemma map_sub t : forall t' s, t_map f t = Ok t' -> In s (subtrees t) ->
  exists s', t_map f s = Ok s' /\ incl (cells p s') (cells p t').
Proof.
  induction t as [lv nm d l r IHl IHr] using tree_induction. intros t' s H I. rewrite subtrees_eq in I.
  destruct I as [<-|I]; [exists t'; auto using incl_refl|].
  cbn [t_map] in H. apply bind_Ok in H. destruct H as (l' & Hl & H). apply bind_Ok in H. destruct H as (r' & Hr & H).
  apply bind_Ok in H. destruct H as (d' & _ & H).
  assert (Et : t' = Node lv nm d' l' r') by (destruct nm; now inv H). subst t'.
  assert (G : forall o o', optP (fun t => forall t' s, t_map f t = Ok t' -> In s (subtrees t) ->
      exists s', t_map f s = Ok s' /\ incl (cells p s') (cells p t')) o ->
    match o with None => Ok None | Some x => do y <- t_map f x; Ok (Some y) end = Ok o' ->
    In s (osubtrees o) -> exists s', t_map f s = Ok s' /\ incl (cells p s') (ocells p o')).
  { intros [x|] o' IH Q J; [|contradiction]. apply bind_Ok in Q. destruct Q as (y & Q & Z). inv Z. exact (IH _ _ Q J). }
  apply in_app_or in I. destruct I as [I|I].
  - destruct (G l l' IHl Hl I) as (s' & E & X). exists s'. split; [exact E|]. rewrite cells_eq.
    intros z Hz. apply in_or_app. right. apply in_or_app. left. auto.
  - destruct (G r r' IHr Hr I) as (s' & E & X). exists s'. split; [exact E|]. rewrite cells_eq.
    intros z Hz. apply in_or_app. right. apply in_or_app. right. auto.
Qed.
Lemma held_incl {T} eqA (st : store T A) a b : incl a b -> held eqA st b -> held eqA st a.
Proof. unfold held. rewrite !forallb_forall. auto. Qed.
Lemma held_same {T} eqA t : forall (st st' : store T A), (forall n, st' (p, n) = st (p, n)) ->
  held eqA st (cells p t) -> held eqA st' (cells p t).
Proof.
  induction t as [lv nm d l r IHl IHr] using tree_induction. intros st st' S. rewrite cells_eq, !held_app. intros (H0 & Hl & Hr).
  split; [|split].
  - destruct nm as [n|]; [|apply held_nil]. unfold held in *. cbn [forallb] in *. rewrite andb_true_r in *.
    apply holds_eq in H0. apply holds_eq. cbn [tree_look] in *. now rewrite S.
  - destruct l as [x|]; [|exact Hl]. exact (IHl _ _ S Hl).
  - destruct r as [x|]; [|exact Hr]. exact (IHr _ _ S Hr).
Qed.
Lemma tnames_names t : tnames t = names t.
Proof.
  induction t as [lv nm d l r IHl IHr] using tree_induction. rewrite tnames_eq, names_eq. cbn [t_name t_left t_right].
  destruct l as [x|], r as [y|]; cbn [optP otnames onames] in *; rewrite ?IHl, ?IHr; now destruct nm.
Qed.
End Sub.

Section Raz.
Context {E M : Type} {RM : RazMeta E M} (eqD : forall x y : tree_data E M, {x = y} + {x <> y}) (q : list name) {Nsp : here}.
Hypothesis apart_ns : q <> path.
Notation rdata := (tree_data E M).
Notation rstore := (store (level * list E) rdata).
Notation rtree := (tree rdata).
Implicit Types (st : rstore).
Variable f : E -> E.
Notation pn := (p_map_node f).
Notation tab := (mtab rtree rtree).
Implicit Types (tb : tab) (itb : itab rdata (stree rdata) (stree rdata)).

Lemma peek_held {K V} st (itb : itab rdata K V) (o : option rtree) : held eqD st (ocells path o) ->
  exists tr, u_peek_op (ohandle path o) st itb = Ok (peek_op o, st, tr, itb, []) /\
    forall st2, held eqD st2 (ocells path o) -> held eqD st2 tr.
Proof.
  destruct o as [t|]; cbn [ohandle ocells]; intros H; [|exists []; split; [reflexivity|intros; apply held_nil]].
  pose proof (handle_look eqD path st t H) as Lk.
  assert (F : u_force (handle path t) st itb = Ok ((t_peek t, ohandle path (t_left t), ohandle path (t_right t)), st,
    match handle path t with TPut _ _ _ _ => [] | TCell _ a => [(a, (t_peek t, ohandle path (t_left t), ohandle path (t_right t)))] end, itb, []))
    by (unfold u_force; now rewrite Lk).
  unfold u_peek_op. rewrite (u_bind_eq _ _ _ _ _ _ _ _ _ F). cbn [u_ret bind]. eexists. split; [reflexivity|].
  intros st2 H2. rewrite app_nil_r. destruct t as [lv [n|] d l r]; [|apply held_nil]. cbn [handle t_peek t_left t_right].
  rewrite cells_eq in H2. apply held_app in H2. exact (proj1 H2).
Qed.
Lemma node_agree st itb d lv nm (l r : option rtree) : held eqD st (ocells path l) -> held eqD st (ocells path r) ->
  exists tr, u_map_node f d lv nm (ohandle path l) (ohandle path r) st itb = (do d' <- pn d lv nm l r; Ok (d', st, tr, itb, [])) /\
    forall st2, held eqD st2 (ocells path l) -> held eqD st2 (ocells path r) -> held eqD st2 tr.
Proof.
  intros Hl Hr. unfold u_map_node, p_map_node.
  destruct d; try solve [exists []; split; [reflexivity|intros; apply held_nil]];
    (destruct (peek_held st itb l Hl) as (tr1 & X1 & Y1); destruct (peek_held st itb r Hr) as (tr2 & X2 & Y2);
     exists (tr1 ++ tr2 ++ []); rewrite (u_bind_eq _ _ _ _ _ _ _ _ _ X1), (u_bind_eq _ _ _ _ _ _ _ _ _ X2); unfold u_lift;
     split; [destruct (td_rebuild _ _ _ _ _); reflexivity|intros; rewrite !held_app; repeat split; auto using held_nil]).
Qed.
Lemma treetop_held {K V} st (itb : itab rdata K V) (o : option rtree) : held eqD st (ocells path o) ->
  exists tr, u_treetop_meta (ohandle path o) st itb = (do m <- treetop_meta o; Ok (m, st, tr, itb, [])) /\
    forall st2, held eqD st2 (ocells path o) -> held eqD st2 tr.
Proof.
  intros H. destruct (peek_held st itb o H) as (tr & X & Y). unfold u_treetop_meta. rewrite (u_bind_eq _ _ _ _ _ _ _ _ _ X).
  exists (tr ++ []). split; [|intros st2 Z; rewrite app_nil_r; exact (Y st2 Z)].
  destruct o as [t|]; cbn [peek_op option_map treetop_meta]; [|reflexivity]. destruct (t_peek t); reflexivity.
Qed.

Notation rrel := (urel eqD q (T := level * list E)).
Notation psound := (sound (t_map pn)).
Notation body := (on_tree (m_fold_up_meta eqD (up pn))).
Definition ofits st tb (o : option rtree) : Prop := match o with None => True | Some t => fits eqD st tb t end.

Lemma rt_sim k (t : raz_tree E M) h itb tb st h' st' tr itb' lg : tree_reads (within q st) h t -> uniq (otnames (rt_tree t)) ->
  rrel itb tb -> psound tb -> ofits st tb (rt_tree t) -> u_rt_map eqD k f h st itb = Ok (h', st', tr, itb', lg) ->
  exists t' o' tb' plg, m_rt_map eqD f t tb = Ok (t', tb', plg) /\ body t tb = Ok (o', tb', plg) /\
    lg = map (handle q) plg /\ rrel itb' tb' /\ psound tb' /\
    match rt_tree t with
    | None => st' = st /\ tb' = tb
    | Some u => exists u', t_map pn u = Ok u' /\ held eqD st' (cells path u')
    end /\ touched st st' lg.
Proof.
  intros [_ Rd] Un Rel Sd Fit H. unfold u_rt_map in H.
  apply u_bind_Ok in H. destruct H as (so & st1 & tr1 & itb1 & lg1 & tr2 & lg2 & H1 & H & -> & ->).
  apply u_bind_Ok in H. destruct H as (m & st2 & tr2' & itb2 & lg2' & tr3 & lg3 & H2 & H & -> & ->). inv H.
  unfold m_rt_map. change (on_tree (m_map eqD _) t tb) with (body t tb).
  unfold on_tree. destruct (srt_tree h) as [s|], (rt_tree t) as [u|]; try contradiction; cbn [otnames ofits] in *.
  - apply reads_rep, (homed eqD) in Rd. destruct Rd as [-> Hc].
    apply u_bind_Ok in H1. destruct H1 as (x & st3 & tr4 & itb3 & lg4 & tr5 & lg5 & H1 & H & -> & ->). inv H.
    destruct (map_sim eqD q apart_ns pn (u_map_node f) node_agree k u itb tb st x st1 tr4 itb1 lg4 Hc Un Rel Sd Fit H1)
      as [(u' & tb' & plg & E1 & -> & -> & E4 & E5 & E6 & E7 & E8 & E9) _ Tc].
    destruct (treetop_held st1 itb1 (Some u') E8) as (tr6 & X & _). cbn [ohandle] in X. rewrite X in H2.
    apply bind_Ok in H2. destruct H2 as (m' & Hm & Z). inv Z.
    rewrite E1. cbn [bind]. unfold mk_raz_tree. rewrite Hm. cbn [bind].
    do 4 eexists. split; [reflexivity|]. split; [reflexivity|]. split; [now rewrite !app_nil_r|]. split; [exact E4|]. split; [exact E5|].
    split; [eauto|]. rewrite !app_nil_r. exact Tc.
  - inv H1. cbn [bind mk_raz_tree treetop_meta].
    destruct (treetop_held st1 itb1 None (held_nil eqD _)) as (tr6 & X & _). cbn [ohandle] in X. rewrite X in H2. inv H2.
    do 4 eexists. split; [reflexivity|]. split; [reflexivity|]. split; [reflexivity|]. split; [exact Rel|]. split; [exact Sd|].
    split; [auto|]. intros b. now left.
Qed.

Lemma tree_uniq t : NoDup (names t) -> uniq (tnames (A := rdata) t).
Proof. exact (proj2 (uniq_NoDup (names t))). Qed.

(** The state after a history: the entries, and the results of the latest run still there. *)
Definition stays (hist : list (event (level * list E) rdata (sraz_tree E M) (sraz_tree E M))) (us : list rtree) : Prop :=
  match hist, us with
  | e :: _, u :: _ => exists u', t_map pn u = Ok u' /\ held eqD (after e) (cells path u')
  | _, _ => True
  end.

Lemma next_fits st tb (us : list rtree) u : orderly (u :: us) -> state_ok us tb -> psound tb ->
  match us with p :: _ => exists p', t_map pn p = Ok p' /\ held eqD st (cells path p') | [] => True end -> fits eqD st tb u.
Proof.
  intros Od [Us Cv] Sd Old lv n d l r I.
  assert (In0 : In n (names u)) by (eapply subtrees_names; [exact I|]; rewrite names_eq; now left).
  assert (No : (forall w, In w us -> ~ In n (names w)) -> tb (NForkL n) = None /\ tb (NForkR n) = None).
  { intros H.
    assert (Z : forall b, tb (if b : bool then NForkL n else NForkR n) = None).
    { intros b. destruct (tb (if b then NForkL n else NForkR n)) as [e|] eqn:Q; [|reflexivity].
      destruct (Us _ _ Q) as (w & m' & I1 & I2 & I3). elim (H w I1).
      destruct b, I3 as [I3|I3]; try discriminate; injection I3 as <-; exact I2. }
    split; [apply (Z true)|apply (Z false)]. }
  destruct us as [|p older].
  - destruct No as [-> ->]; [intros w []|]. split; discriminate.
  - simpl in Od. destruct Od as (Oh & _ & _ & Od). destruct (Od n In0) as [H|H].
    2: { destruct (No H) as [-> ->]. split; discriminate. }
    destruct Oh as (_ & Ip & Np & _). destruct (name_edge p n Ip H) as (pl & pr & Ed).
    destruct (Cv n pl pr Ed) as [[xl EL] [xr ER]]. destruct Old as (p' & Mp & Hp). destruct Ed as (lv' & d' & Ed).
    assert (G : forall w x m, In w (subtrees p) -> tb m = Some (w, x) -> held eqD st (cells path x)).
    { intros w x m Iw Tm. destruct (map_sub path pn p p' w Mp Iw) as (x' & Ex & Inc).
      pose proof (Sd _ _ _ Tm) as E2. rewrite Ex in E2. injection E2 as ->. eapply held_incl; eauto. }
    assert (Is : In pl (subtrees p) /\ In pr (subtrees p)).
    { split; (eapply subtrees_trans; [exact Ed|]; rewrite subtrees_eq; right; apply in_or_app);
        [left|right]; apply subtrees_self. }
    split; intros w x Hw Tm.
    + rewrite EL in Tm. injection Tm as <- <-. exact (G _ _ _ (proj1 Is) EL).
    + rewrite ER in Tm. injection Tm as <- <-. exact (G _ _ _ (proj2 Is) ER).
Qed.

Lemma undisturbed_tail {T A X Y} p (e : event T A X Y) h : undisturbed p (e :: h) -> undisturbed p h.
Proof. cbn [undisturbed]. tauto. Qed.

Definition good_history hist (ts : list (raz_tree E M)) : Prop :=
  undisturbed path hist /\
  Forall2 (fun (e : event (level * list E) rdata (sraz_tree E M) (sraz_tree E M)) t => tree_reads (within q (before e)) (given e) t) hist ts /\
  Forall (fun t : raz_tree E M => otree_ok (rt_tree t)) ts /\ orderly_points (map contents ts).
Lemma good_tail e hist t ts : good_history (e :: hist) (t :: ts) -> good_history hist ts.
Proof.
  intros (U & F & O & P). split; [exact (undisturbed_tail _ _ _ U)|]. split; [now inv F|]. split; [now inv O|].
  cbn [map orderly_points] in P. tauto.
Qed.

Lemma one_step k e hist ts t itb tb tr itb' : good_history (e :: hist) (t :: ts) ->
  rrel itb tb -> psound tb -> state_ok (trees ts) tb -> stays hist (trees ts) -> (hist = [] -> trees ts = []) ->
  u_rt_map eqD k f (given e) (before e) itb = Ok (result e, after e, tr, itb', entered e) ->
  exists t' tb' plg, m_rt_map eqD f t tb = Ok (t', tb', plg) /\ entered e = map (handle q) plg /\
    rrel itb' tb' /\ psound tb' /\ state_ok (trees (t :: ts)) tb' /\ stays (e :: hist) (trees (t :: ts)) /\
    touched (before e) (after e) (entered e).
Proof.
  intros (U & F & O & P) Rel Sd So St Em H.
  pose proof (orderly_trees _ O P) as Od. inv F. inv O.
  assert (Bf : match trees ts with p :: _ => exists p', t_map pn p = Ok p' /\ held eqD (before e) (cells path p') | [] => True end).
  { destruct (trees ts) as [|p older] eqn:Et; [exact I|]. destruct hist as [|e' past]; [specialize (Em eq_refl); discriminate|].
    destruct St as (p' & Mp & Hp). exists p'. split; [exact Mp|]. cbn [undisturbed] in U. destruct U as [_ U].
    eapply held_same; eauto. }
  assert (Un : uniq (otnames (rt_tree t)) /\ ofits (before e) tb (rt_tree t)).
  { unfold trees in Od. cbn [flat_map] in Od. fold (trees ts) in Od. destruct (rt_tree t) as [u|]; [|split; [apply uniq_NoDup; constructor|exact I]].
    cbn [app] in Od. split; [|eapply next_fits; eauto]. apply tree_uniq. exact (proj1 (proj2 (orderly_head _ _ Od))). }
  destruct Un as [Un Fit].
  destruct (rt_sim k t (given e) itb tb (before e) _ _ _ _ _ H3 Un Rel Sd Fit H) as (t' & o' & tb' & plg & E1 & E2 & E3 & E4 & E5 & E6 & E7).
  exists t', tb', plg. split; [exact E1|]. split; [exact E3|]. split; [exact E4|]. split; [exact E5|].
  unfold trees. cbn [flat_map]. fold (trees ts). unfold trees in Od. cbn [flat_map] in Od. fold (trees ts) in Od.
  unfold on_tree in E2. destruct (rt_tree t) as [u|]; cbn [app] in *.
  - apply bind_Ok in E2. destruct E2 as ([[y T1] lg1] & E2 & Z). inv Z.
    split; [exact (proj1 (state_step eqD (up pn) u (trees ts) tb y tb' plg Od So E2))|]. split; [|exact E7]. exact E6.
  - destruct E6 as [Es ->]. split; [exact So|]. split; [|exact E7]. unfold stays. rewrite Es. exact Bf.
Qed.

Lemma history hist itb : ran (fun k => u_rt_map eqD k f) hist itb -> forall ts, good_history hist ts ->
  exists rs tb lgs, runs (m_rt_map eqD f) (rev ts) no_memos = Ok (rs, tb, lgs) /\ rrel itb tb /\ psound tb /\
    state_ok (trees ts) tb /\ stays hist (trees ts) /\ (hist = [] -> trees ts = []).
Proof.
  induction 1 as [|hist itb k' st x y st' tr itb' lg R IH H]; intros ts G.
  - assert (ts = []) as -> by (destruct G as (_ & F & _); now inv F).
    do 3 eexists. split; [reflexivity|]. split; [intros n; exact I|]. split; [intros n a b; discriminate|].
    split; [apply no_memos_state|]. split; [exact I|reflexivity].
  - destruct ts as [|t ts]; [destruct G as (_ & F & _); inv F|].
    destruct (IH ts (good_tail _ _ _ _ G)) as (rs & tb & lgs & Rs & Rel & Sd & So & St & Em).
    destruct (one_step k' _ hist ts t itb tb tr itb' G Rel Sd So St Em H) as (t' & tb' & plg & E1 & E2 & E3 & E4 & E5 & E6 & E7).
    cbn [rev]. rewrite runs_app, Rs. cbn [bind runs]. rewrite E1. cbn [bind]. do 3 eexists. split; [reflexivity|].
    split; [exact E3|]. split; [exact E4|]. split; [exact E5|]. split; [exact E6|discriminate].
Qed.

Theorem map_again (t t' : raz_tree E M) older pre mid mid' post e hist itb :
  Forall (fun t => tree_reached false t) (t' :: t :: older) -> orderly_points (map contents (t' :: t :: older)) ->
  contents t = pre ++ mid ++ post -> contents t' = pre ++ mid' ++ post ->
  ran (fun k => u_rt_map eqD k f) (e :: hist) itb -> undisturbed path (e :: hist) ->
  Forall2 (fun e t => tree_reads (within q (before e)) (given e) t) (e :: hist) (t' :: t :: older) ->
  length (entered e) <= 1 + 2 * (seen_from_right pre + length (marks mid') + seen_from_left 0%N post) /\
  touched (before e) (after e) (entered e).
Proof.
  intros Re Op C C' R U F.
  assert (G : good_history (e :: hist) (t' :: t :: older)).
  { split; [exact U|]. split; [exact F|]. split; [|exact Op]. exact (MemoHistory.reached_ok t t' older Re). }
  assert (R' : exists k tab tr, ran (fun k => u_rt_map eqD k f) hist tab /\
    u_rt_map eqD k f (given e) (before e) tab = Ok (result e, after e, tr, itb, entered e)).
  { inversion R as [|h tab k st x y st' tr tab' lg R0 H0 E0 E1]. subst. eauto 10. }
  destruct R' as (k & tab & tr & R0 & H0).
  destruct (history hist tab R0 _ (good_tail _ _ _ _ G)) as (rs & tb & lgs & Rs & Rel & Sd & So & St & Em).
  destruct (one_step k e hist _ t' tab tb tr itb G Rel Sd So St Em H0) as (x' & tb' & plg & E1 & E2 & E3 & E4 & E5 & E6 & E7).
  split; [|exact E7]. rewrite E2, map_length.
  destruct (map_runs eqD f) as (up & X & Y). apply X in E1. destruct E1 as (z & E1).
  apply Y in Rs. destruct Rs as (rs' & Rs). exact (up_cost eqD t t' older pre mid mid' post Re Op C C' up _ _ _ _ _ _ Rs E1).
Qed.
End Raz.
