(** * What a rerun of the memoised builders over the store enters and writes. *)

From Verif Require Import Base BaseFacts Spec LevelTreeModel TreeSpec TreeProofs TreeCursorModel RazMetaModel RazModel MemoModel
  MemoSpec MemoProofs MemoCost MemoHistory RazView RazScripts RazProofs RazReach ExampleModel StoreModel StoreSpec StoreScripts StoreProofs StoreRaz StoreHistory
  StoreNs StoreMapModel StoreMapProofs IncModel IncSpec IncProofs IncCost IncMapModel IncMapSpec IncMapProofs IncMapCost BuildIncModel BuildIncProofs.

(** The fold, with results that are trees made in the namespace [p], of trees in [q]. *)
Section Fold.
Context {E M : Type} {RM : RazMeta E M} (eqD : forall x y : tree_data E M, {x = y} + {x <> y}) (q p : list name) {Nsp : here}.
Hypothesis apart_ns : q <> p.
Notation rdata := (tree_data E M).
Notation rstore := (store (level * list E) rdata).
Notation X := (raz_tree E M).
Notation held := (held eqD).
Notation upto := (upto (Nsp := p)).
Notation hin := (handle q).
Notation cin := (cells q).
Definition hres (x : X) : sraz_tree E M := SRazTree (rt_meta x) (ohandle p (rt_tree x)).
Definition rc (x : X) : list (@seen rdata) := ocells p (rt_tree x).
Definition ohres (o : option X) := option_map hres o.
Definition orc (o : option X) : list (@seen rdata) := match o with None => [] | Some x => rc x end.
Notation onms := (onms (@rtnames E M)).
Definition ends {Y} (d : rdata) (l r : option Y) : Prop := match d with Leaf _ => l = None /\ r = None | _ => True end.
Fixpoint tame_tree (t : tree rdata) : Prop :=
  match t with
  | Node _ _ d l r =>
      ends d l r /\ match l with None => True | Some u => tame_tree u end /\ match r with None => True | Some u => tame_tree u end
  end.
Definition otame (o : option (tree rdata)) : Prop := match o with None => True | Some u => tame_tree u end.

Variable pf : option X -> rdata -> level -> option name -> option X -> res X.
Variable sf : option (sraz_tree E M) -> rdata -> level -> option name -> option (sraz_tree E M) ->
  um (level * list E) rdata (stree rdata) (sraz_tree E M) (sraz_tree E M).
Hypothesis agree : forall st itb d lv nm l r s' st' tr itb' lg, held st (orc l) -> held st (orc r) -> ends d l r ->
  uniq (oroot nm ++ onms l ++ onms r) -> sf (ohres l) d lv nm (ohres r) st itb = Ok (s', st', tr, itb', lg) ->
  itb' = itb /\ lg = [] /\ exists x, pf l d lv nm r = Ok x /\ s' = hres x /\ upto (oroot nm) st st' /\ held st' (rc x) /\
    forall st2 : rstore, held st2 (rc x) <-> held st2 tr /\ held st2 (orc l) /\ held st2 (orc r).
Hypothesis pnames : forall l d lv nm r x, pf l d lv nm r = Ok x -> sub (rtnames x) (oroot nm ++ onms l ++ onms r).
Hypothesis keeps : forall l d lv nm r x, pf l d lv nm r = Ok x -> ends d l r -> incl (orc l) (rc x) /\ incl (orc r) (rc x).

Notation fold := (m_fold_up_meta eqD pf).
Notation pfold := (t_fold_up_meta pf).
Notation ofold o := (match o with None => Ok None | Some t => do x <- t_fold_up_meta pf t; Ok (Some x) end).
Notation tab := (mtab (tree rdata) X).
Implicit Types (st : rstore) (t u : tree rdata) (tb : tab) (itb : itab rdata (stree rdata) (sraz_tree E M)).
Notation psound := (sound pfold).
Notation nsub := (fold_names (@rtnames E M) pf pnames).
Notation onsub := (ofold_names (@rtnames E M) pf pnames).

Definition brel itb tb : Prop :=
  forall n, match itb (path, n), tb n with
            | None, None => True
            | Some e, Some (k, r) => e_arg e = hin k /\ e_res e = hres r /\
                forall st, held st (e_seen e) <-> held st (cin k) /\ held st (rc r)
            | _, _ => False
            end.
(** The results on record for the branches of this tree are still there. *)
Definition bfits st tb t : Prop := forall lv n d l r, In (Node lv (Some n) d l r) (subtrees t) ->
  (forall u x, l = Some u -> tb (NForkL n) = Some (u, x) -> held st (rc x)) /\
  (forall u x, r = Some u -> tb (NForkR n) = Some (u, x) -> held st (rc x)).
Definition bforks (N : list name) tb tb' : Prop :=
  forall n, tb' n = tb n \/ exists m, In m N /\ (n = NForkL m \/ n = NForkR m).
Definition btouched st st' (lg : list (stree rdata)) : Prop :=
  forall b, st' b = st b \/ fst b = p /\ exists h, In h lg /\ st_name h = Some (snd b).

Record bpost t (body : tab -> res (X * tab * list (tree rdata))) tb st s' st' tr itb' lg : Prop := {
  bpo_run : exists x tb' plg, body tb = Ok (x, tb', plg) /\ s' = hres x /\ lg = map hin plg /\ brel itb' tb' /\ psound tb' /\
    pfold t = Ok x /\ bforks (tnames t) tb tb' /\ held st' (rc x) /\
    (forall st2, held st2 tr <-> held st2 (cin t) /\ held st2 (rc x));
  bpo_upto : upto (tnames t) st st';
  bpo_touched : btouched st st' lg
}.

Lemma btouched_refl st lg : btouched st st lg.
Proof. intros b. now left. Qed.
Lemma btouched_trans st st1 st2 lg : btouched st st1 lg -> btouched st1 st2 lg -> btouched st st2 lg.
Proof. intros H1 H2 b. destruct (H2 b) as [Z|Z]; [|auto]. destruct (H1 b) as [Z1|Z1]; [|auto]. left. congruence. Qed.
Lemma btouched_sub st st' lg lg' : (forall h, In h lg -> In h lg') -> btouched st st' lg -> btouched st st' lg'.
Proof. intros S H b. destruct (H b) as [Z|(Ep & h & I & Z)]; [auto|]. right. split; [exact Ep|]. eauto. Qed.

Lemma rc_keep L x st st' : apart (rtnames x) L -> upto L st st' -> held st (rc x) -> held st' (rc x).
Proof. intros D U. apply (held_upto_o eqD (Nsp := p) p L); auto. Qed.
Lemma orc_keep L o st st' : apart (onms o) L -> upto L st st' -> held st (orc o) -> held st' (orc o).
Proof. destruct o; [apply rc_keep|]. intros. apply held_nil. Qed.

(** A call is answered from the one table exactly when it is from the other. *)
Lemma bcall_sim n t body ibody itb tb st s' st' tr itb' lg :
  (forall m, n = Some m -> forall x, tb m = Some (t, x) -> held st (rc x)) ->
  held st (cin t) -> brel itb tb -> psound tb ->
  (forall s' st' tr itb' lg, ibody st itb = Ok (s', st', tr, itb', lg) -> bpost t body tb st s' st' tr itb' lg) ->
  u_memo_opt eqD n (hin t) ibody st itb = Ok (s', st', tr, itb', lg) ->
  exists x tb' plg, memo_opt (tree_same eqD) n t body tb = Ok (x, tb', plg) /\ s' = hres x /\ lg = map hin plg /\
    brel itb' tb' /\ psound tb' /\ pfold t = Ok x /\
    (forall m, tb' m = tb m \/ Some m = n \/ exists p, In p (tnames t) /\ (m = NForkL p \/ m = NForkR p)) /\
    held st' (rc x) /\ (forall st2, held st2 tr <-> held st2 (cin t) /\ held st2 (rc x)) /\
    upto (tnames t) st st' /\ btouched st st' lg.
Proof.
  intros Fit Hc Rel Sd B H. destruct n as [n|]; cbn [u_memo_opt memo_opt] in *.
  2: { destruct (B _ _ _ _ _ H) as [(x & tb' & plg & E1 & E2 & E3 & E4 & E5 & E6 & E7 & E8 & E9) U Tc].
       exists x, tb', plg. repeat (split; [assumption|]). split; [|auto].
       intros m. destruct (E7 m) as [Z|Z]; auto. }
  unfold u_memo in H. unfold memo.
  assert (Rr : (do ' (r, st', s0, tab', lg) <- ibody st itb; Ok (r, st', s0, i_set tab' (path, n) (Entry (hin t) s0 r), lg)) = Ok (s', st', tr, itb', lg) ->
    exists x tb' plg, (do ' (r, tab', lg) <- body tb; Ok (r, memo_set tab' n t r, lg)) = Ok (x, tb', plg) /\ s' = hres x /\ lg = map hin plg /\
    brel itb' tb' /\ psound tb' /\ pfold t = Ok x /\
    (forall m, tb' m = tb m \/ Some m = Some n \/ exists p, In p (tnames t) /\ (m = NForkL p \/ m = NForkR p)) /\
    held st' (rc x) /\ (forall st2, held st2 tr <-> held st2 (cin t) /\ held st2 (rc x)) /\
    upto (tnames t) st st' /\ btouched st st' lg).
  { intros Q. apply bind_Ok in Q. destruct Q as ([[[[r st1] tr1] itb1] lg1] & Q & Z). inv Z.
    destruct (B _ _ _ _ _ Q) as [(x & tb' & plg & E1 & E2 & E3 & E4 & E5 & E6 & E7 & E8 & E9) U Tc].
    rewrite E1. cbn [bind]. exists x, (memo_set tb' n t x), plg. split; [reflexivity|]. split; [exact E2|]. split; [exact E3|].
    split; [|split; [|split; [exact E6|split; [|auto]]]].
    - intros m. unfold i_set, memo_set. specialize (E4 m). destruct (name_eq_dec m n) as [->|Ne].
      + destruct (loc_eq_dec (path, n) (path, n)); [|congruence]. cbn [e_arg e_res e_seen]. auto.
      + destruct (loc_eq_dec (path, m) (path, n)); [congruence|exact E4].
    - intros m k y. unfold memo_set. destruct (name_eq_dec m n); [|apply E5]. intros Z. now inv Z.
    - intros m. unfold memo_set. destruct (name_eq_dec m n) as [->|]; [auto|]. destruct (E7 m) as [Z|Z]; auto. }
  pose proof (Rel n) as Rn. destruct (itb (path, n)) as [e|], (tb n) as [[k' r]|] eqn:Tn; try contradiction; [|exact (Rr H)].
  destruct Rn as (Ea & Er & Es). rewrite Ea in H.
  destruct (tree_same eqD t k') eqn:Sm.
  - apply tree_same_eq in Sm. subst k'.
    assert (Y0 : stree_same eqD (hin t) (hin t) = true) by now apply stree_same_eq. rewrite Y0 in H.
    pose proof (Fit n eq_refl r Tn) as Ho.
    assert (Y : forallb (holds eqD st) (e_seen e) = true) by (apply Es; auto). rewrite Y in H. cbn [andb] in H. inv H.
    exists r, tb, []. split; [reflexivity|]. split; [exact Er|]. split; [reflexivity|]. split; [exact Rel|]. split; [exact Sd|].
    split; [exact (Sd _ _ _ Tn)|]. split; [auto|]. split; [exact Ho|]. split; [exact Es|]. split; [apply upto_refl|apply btouched_refl].
  - destruct (stree_same eqD (hin t) (hin k') && forallb (holds eqD st) (e_seen e)) eqn:Q; [|exact (Rr H)].
    apply andb_true_iff in Q. destruct Q as [Q1 Q2]. apply stree_same_eq in Q1.
    assert (Q3 : held st (cin k')) by (apply Es; exact Q2).
    pose proof (handle_inj eqD q st t k' Q1 Hc Q3) as W. apply (tree_same_eq eqD) in W. congruence.
Qed.

Lemma bfits_keep st tb st' tb' t L : bfits st tb t -> upto L st st' -> apart (tnames t) L -> psound tb ->
  (forall n, In n (tnames t) -> tb' (NForkL n) = tb (NForkL n) /\ tb' (NForkR n) = tb (NForkR n)) -> bfits st' tb' t.
Proof.
  intros F U D Sd Eq lv n d l r I. destruct (sub_names _ _ _ _ _ _ I) as [In1 In2]. destruct (Eq n In1) as [EL ER].
  destruct (F _ _ _ _ _ I) as [FL FR]. rewrite EL, ER.
  assert (K : forall u x m, l = Some u \/ r = Some u -> tb m = Some (u, x) -> held st (rc x) -> held st' (rc x)).
  { intros u x m Hu Tm. apply (rc_keep L); [|exact U].
    pose proof (nsub u x (Sd _ _ _ Tm)) as Sb. intros z. destruct (D z) as [Z|Z]; [left|now right].
    apply cnt_zero in Z. specialize (Sb z).
    assert (W : cnt z (tnames u) = 0) by (apply cnt_zero; intros Hz; apply Z; eapply In2; eauto). lia. }
  split; intros u x Hu Tm; eapply K; eauto.
Qed.
Lemma bfits_sub st tb lv nm d l r : bfits st tb (Node lv nm d l r) ->
  (forall u, l = Some u \/ r = Some u -> bfits st tb u).
Proof.
  intros F u Hu lv' n' d' l' r' I. apply (F lv' n' d' l' r'). rewrite subtrees_eq. right. apply in_or_app.
  destruct Hu as [->| ->]; auto.
Qed.

Lemma bchild_sim k n o : optP (fun t => forall itb tb st s' st' tr itb' lg, tame_tree t -> held st (cin t) -> uniq (tnames t) -> brel itb tb -> psound tb ->
    bfits st tb t -> u_fold_up_meta eqD sf k (hin t) st itb = Ok (s', st', tr, itb', lg) -> bpost t (fold t) tb st s' st' tr itb' lg) o ->
  forall itb tb st so' st' tr itb' lg,
  (forall m, n = Some m -> forall u x, o = Some u -> tb m = Some (u, x) -> held st (rc x)) ->
  (forall u, o = Some u -> bfits st tb u) -> otame o ->
  held st (ocells q o) -> uniq (otnames o) -> brel itb tb -> psound tb ->
  match ohandle q o with
  | None => u_ret None
  | Some t1 => upd x <- u_memo_opt eqD n t1 (u_fold_up_meta eqD sf k t1); u_ret (Some x)
  end st itb = Ok (so', st', tr, itb', lg) ->
  exists o' tb' plg,
    match o with
    | None => Ok (None, tb, [])
    | Some t1 => do ' (x, tab1, lg1) <- memo_opt (tree_same eqD) n t1 (fold t1) tb; Ok (Some x, tab1, lg1)
    end = Ok (o', tb', plg) /\ so' = ohres o' /\ lg = map hin plg /\ brel itb' tb' /\ psound tb' /\ ofold o = Ok o' /\
    (forall m, tb' m = tb m \/ Some m = n \/ exists p, In p (otnames o) /\ (m = NForkL p \/ m = NForkR p)) /\
    held st' (orc o') /\ (forall st2, held st2 tr <-> held st2 (ocells q o) /\ held st2 (orc o')) /\
    upto (otnames o) st st' /\ btouched st st' lg.
Proof.
  intros IH itb tb st so' st' tr itb' lg Fit Fs Tm Hc Un Rel Sd H. destruct o as [t|]; cbn [ohandle ocells otnames optP otame] in *.
  - apply u_bind_Ok in H. destruct H as (x & st1 & tr1 & itb1 & lg1 & tr2 & lg2 & H & Z & -> & ->). inv Z.
    destruct (bcall_sim n t (fold t) (u_fold_up_meta eqD sf k (hin t)) itb tb st x st' tr1 itb' lg1) as
      (t' & tb' & plg & E1 & E2 & E3 & E4 & E5 & E6 & E7 & E8 & E9 & E10 & E11); auto.
    + intros m Em y Ty. eapply Fit; eauto.
    + intros s'0 st'0 tr0 itb0 lg0 Q. eapply IH; eauto.
    + rewrite E1, E6. cbn [bind]. exists (Some t'), tb', plg. rewrite !app_nil_r. subst x. repeat (split; [assumption || reflexivity|]).
      exact E11.
  - inv H. exists None, tb, []. repeat (split; [reflexivity || assumption|]). split; [auto|]. split; [apply held_nil|].
    split; [intros st2; cbn [ocells orc]; split; auto using held_nil|]. split; [apply upto_refl|apply btouched_refl].
Qed.

Lemma ends_fold d l r l' r' : ends d l r -> ofold l = Ok l' -> ofold r = Ok r' -> ends d l' r'.
Proof. destruct d; cbn [ends]; auto. intros [-> ->] H1 H2. inv H1. now inv H2. Qed.

Lemma build_sim k : forall t itb tb st s' st' tr itb' lg, tame_tree t -> held st (cin t) -> uniq (tnames t) -> brel itb tb -> psound tb ->
  bfits st tb t -> u_fold_up_meta eqD sf k (hin t) st itb = Ok (s', st', tr, itb', lg) -> bpost t (fold t) tb st s' st' tr itb' lg.
Proof.
  induction k as [|k IH]; intros t itb tb st s' st' tr itb' lg Tm Hc Un Rel Sd Fit H; [discriminate|]. cbn [u_fold_up_meta] in H.
  pose proof (handle_look eqD q st t Hc) as Lk.
  apply u_bind_Ok in H. destruct H as ([] & st0 & tr0 & tab0 & lg0 & tr1 & lg1 & H0 & H & -> & ->). inv H0.
  apply u_bind_Ok in H. destruct H as ([[d sl] sr] & st1 & tr1' & tab1 & lg1' & tr2 & lg2 & H1 & H & -> & ->).
  unfold u_force in H1. rewrite Lk in H1. cbn [unwrap bind] in H1. inv H1.
  rewrite handle_name, handle_level in H. destruct t as [lv nm d l r]. cbn [t_level t_name t_peek t_left t_right] in *.
  cbn [tame_tree] in Tm. destruct Tm as (Te & Tl & Tr).
  apply u_bind_Ok in H. destruct H as (sl' & st2 & tr2' & tab2 & lg2' & tr3 & lg3 & H2 & H & -> & ->).
  apply u_bind_Ok in H. destruct H as (sr' & st3 & tr3' & tab3 & lg3' & tr4 & lg4 & H3 & H & -> & ->).
  pose proof Hc as Hc'. rewrite cells_eq, !held_app in Hc'. destruct Hc' as (_ & Hl & Hr).
  pose proof Un as Un'. rewrite tnames_eq in Un'. cbn [t_name t_left t_right] in Un'.
  pose proof (bfits_sub _ _ _ _ _ _ _ Fit) as Fs.
  assert (Root : forall n, nm = Some n ->
    (forall u x, l = Some u -> tb (NForkL n) = Some (u, x) -> held st1 (rc x)) /\
    (forall u x, r = Some u -> tb (NForkR n) = Some (u, x) -> held st1 (rc x))).
  { intros n ->. apply (Fit lv n d l r). rewrite subtrees_eq. now left. }
  destruct (bchild_sim k (fork_left nm) l) with (itb := tab1) (tb := tb) (st := st1) (so' := sl') (st' := st2) (tr := tr2') (itb' := tab2) (lg := lg2')
    as (l' & tb1 & plg1 & A1 & A2 & A3 & A4 & A5 & A6 & A7 & A8 & A9 & A10 & A11); auto; try names.
  { destruct l as [tl|]; [|exact I]. intros itb0 tb0. apply IH. }
  { intros m Em u x Hu Tx. destruct nm as [n|]; [|discriminate]. injection Em as <-. exact (proj1 (Root n eq_refl) u x Hu Tx). }
  assert (Hr1 : held st2 (ocells q r)) by (apply (held_upto_o eqD (Nsp := p) q (otnames l) r (or_introl apart_ns) st1); auto).
  assert (Keep : forall m p, In p (tnames (Node lv nm d None r)) -> (m = NForkL p -> ~ nm = Some p) -> m = NForkL p \/ m = NForkR p -> tb1 m = tb m).
  { intros m n Ip Np Em. destruct (A7 m) as [Z|[Z|(p' & Ip' & Z)]]; [exact Z|exfalso..].
    - destruct nm as [n'|]; [|discriminate]. injection Z as ->. destruct Em as [Em|Em]; [|discriminate].
      apply (Np Em). congruence.
    - assert (p' = n) by (destruct Em, Z; congruence). subst p'.
      rewrite tnames_eq in Ip. cbn [t_name t_left t_right otnames app] in Ip. apply cnt_In in Ip, Ip'.
      rewrite ?cnt_app in Ip. specialize (Un' n). rewrite !cnt_app in Un'. lia. }
  destruct (bchild_sim k (fork_right nm) r) with (itb := tab2) (tb := tb1) (st := st2) (so' := sr') (st' := st3) (tr := tr3') (itb' := tab3) (lg := lg3')
    as (r' & tb2 & plg2 & B1 & B2 & B3 & B4 & B5 & B6 & B7 & B8 & B9 & B10 & B11); auto; try names.
  { destruct r as [tl|]; [|exact I]. intros itb0 tb0. apply IH. }
  { intros m Em u x Hu Tx. destruct nm as [n|]; [|discriminate]. injection Em as <-.
    rewrite (Keep (NForkR n) n) in Tx; [|rewrite tnames_eq; now left|discriminate|now right].
    pose proof (proj2 (Root n eq_refl) u x Hu Tx) as W. revert W. apply (rc_keep (otnames l)); [|exact A10].
    pose proof (nsub u x (Sd _ _ _ Tx)). subst r. cbn [otnames] in Un'. names. }
  { intros u Hu. subst r. cbn [otnames] in *. apply (bfits_keep st1 tb st2 tb1 u (otnames l)); auto.
    - names.
    - intros n Hn. assert (Hn' : In n (tnames (Node lv nm d None (Some u)))).
      { rewrite tnames_eq. cbn [t_name t_left t_right otnames app]. apply in_or_app. now right. }
      split; apply (Keep _ n); auto; [|discriminate]. intros _ ->. cbn [oroot] in Un'. specialize (Un' n). apply cnt_In in Hn.
      rewrite !cnt_app in Un'. unfold cnt in Un' at 1. simpl in Un'. destruct (name_eq_dec n n); [lia|congruence]. }
  pose proof (onsub _ _ A6) as Nl. pose proof (onsub _ _ B6) as Nr.
  assert (Hl2 : held st3 (orc l')) by (refine (orc_keep (otnames r) l' st2 _ _ B10 A8); names).
  subst sl' sr'.
  destruct (agree st3 tab3 d lv nm l' r' s' st' tr4 itb' lg4 Hl2 B8 (ends_fold _ _ _ _ _ Te A6 B6) ltac:(names) H)
    as (-> & -> & x & Ex & -> & U5 & Hx & Etr).
  assert (T5 : btouched st3 st' [hin (Node lv nm d l r)]).
  { intros b. destruct (list_eq_dec name_eq_dec (fst b) p) as [Ep|Ep]; [|left; apply U5; now left].
    destruct nm as [n|]; [|left; apply U5; now right]. destruct (name_eq_dec (snd b) n) as [En|En].
    - right. split; [exact Ep|]. eexists. split; [now left|]. rewrite handle_name. cbn [t_name]. now rewrite En.
    - left. apply U5. right. apply cnt_zero. intros [Z|[]]. congruence. }
  assert (Lg : forall h, h = hin (Node lv nm d l r) \/ In h (map hin plg1) \/ In h (map hin plg2) ->
     In h ([hin (Node lv nm d l r)] ++ [] ++ map hin plg1 ++ map hin plg2 ++ [])).
  { intros h Hh. cbn [app]. destruct Hh as [->|[Hh|Hh]]; [now left|right..]; apply in_or_app; [now left|right; apply in_or_app; now left]. }
  assert (Pm : pfold (Node lv nm d l r) = Ok x).
  { cbn [t_fold_up_meta]. rewrite A6. cbn [bind]. rewrite B6. cbn [bind]. exact Ex. }
  subst lg2' lg3'. constructor.
  - exists x, tb2, (Node lv nm d l r :: plg1 ++ plg2).
    split; [|split; [reflexivity|split; [|split; [exact B4|split; [exact B5|split; [exact Pm|split; [|split; [exact Hx|]]]]]]]].
    + cbn [m_fold_up_meta]. rewrite A1. cbn [bind]. rewrite B1. cbn [bind]. rewrite Ex. reflexivity.
    + cbn [app map]. now rewrite !app_nil_r, map_app.
    + intros m. rewrite tnames_eq. cbn [t_name t_left t_right].
      assert (F : forall (b : bool) o', Some m = (if b then fork_left nm else fork_right nm) ->
        exists p, In p (oroot nm ++ o') /\ (m = NForkL p \/ m = NForkR p)).
      { intros b o' Z. destruct nm as [n|]; [|destruct b; discriminate]. exists n. split; [now left|]. destruct b; injection Z as ->; auto. }
      destruct (B7 m) as [Z|[Z|(n & Ip & Z)]]; [|right; exact (F false _ Z)|right].
      * destruct (A7 m) as [Z'|[Z'|(n & Ip & Z')]]; [left; congruence|right; exact (F true _ Z')|right].
        exists n. split; [|exact Z']. apply in_or_app. right. apply in_or_app. now left.
      * exists n. split; [|exact Z]. apply in_or_app. right. apply in_or_app. now right.
    + intros st6. rewrite cells_eq, !held_app. rewrite A9, B9, Etr.
      assert (Rt : match handle q (Node lv nm d l r) with TPut _ _ _ _ => [] | TCell _ a => [(a, (d, ohandle q l, ohandle q r))] end =
        match nm with None => [] | Some n => [((q, n), (d, ohandle q l, ohandle q r))] end) by now destruct nm.
      rewrite Rt. pose proof (held_nil eqD st6). tauto.
  - rewrite tnames_eq. cbn [t_name t_left t_right].
    apply (upto_trans _ _ st2); [apply (upto_sub (otnames l)); [names|exact A10]|].
    apply (upto_trans _ _ st3); [apply (upto_sub (otnames r)); [names|exact B10]|].
    apply (upto_sub (oroot nm)); [names|exact U5].
  - apply (btouched_trans _ st2); [apply (btouched_sub _ _ (map hin plg1)); [intros; apply Lg; auto|exact A11]|].
    apply (btouched_trans _ st3); [apply (btouched_sub _ _ (map hin plg2)); [intros; apply Lg; auto|exact B11]|].
    apply (btouched_sub _ _ [hin (Node lv nm d l r)]); [|exact T5]. intros h [<-|[]]. apply Lg. now left.
Qed.

Lemma build_sub t : forall x u, tame_tree t -> pfold t = Ok x -> In u (subtrees t) -> exists y, pfold u = Ok y /\ incl (rc y) (rc x).
Proof.
  induction t as [lv nm d l r IHl IHr] using tree_induction. intros x u Tm H I. rewrite subtrees_eq in I.
  destruct I as [<-|I]; [exists x; auto using incl_refl|].
  cbn [t_fold_up_meta] in H. apply bind_Ok in H. destruct H as (l' & Hl & H). apply bind_Ok in H. destruct H as (r' & Hr & H).
  cbn [tame_tree] in Tm. destruct Tm as (Te & Tl & Tr). destruct (keeps _ _ _ _ _ _ H (ends_fold _ _ _ _ _ Te Hl Hr)) as [Kl Kr].
  assert (G : forall o o', optP (fun t => forall x u, tame_tree t -> pfold t = Ok x -> In u (subtrees t) ->
      exists y, pfold u = Ok y /\ incl (rc y) (rc x)) o -> otame o -> ofold o = Ok o' ->
    In u (osubtrees o) -> exists y, pfold u = Ok y /\ incl (rc y) (orc o')).
  { intros [w|] o' IH T Q J; [|contradiction]. apply bind_Ok in Q. destruct Q as (y & Q & Z). inv Z. exact (IH _ _ T Q J). }
  apply in_app_or in I. destruct I as [I|I].
  - destruct (G l l' IHl Tl Hl I) as (y & Z & W). exists y. split; [exact Z|]. eapply incl_tran; eauto.
  - destruct (G r r' IHr Tr Hr I) as (y & Z & W). exists y. split; [exact Z|]. eapply incl_tran; eauto.
Qed.

(** ** Histories *)
Notation run := (fun k (h : sraz_tree E M) =>
  match srt_tree h with
  | None => u_ret None
  | Some s => upd x <- u_fold_up_meta eqD sf k s; u_ret (Some x)
  end).
Notation body := (on_tree fold).
Notation bevent := (event (level * list E) rdata (sraz_tree E M) (option (sraz_tree E M))).
Definition obfits st tb (o : option (tree rdata)) : Prop := match o with None => True | Some t => bfits st tb t end.

Lemma brt_sim k (t : raz_tree E M) h itb tb st h' st' tr itb' lg : tree_reads (within q st) h t -> uniq (otnames (rt_tree t)) -> otame (rt_tree t) ->
  brel itb tb -> psound tb -> obfits st tb (rt_tree t) -> run k h st itb = Ok (h', st', tr, itb', lg) ->
  exists o' tb' plg, body t tb = Ok (o', tb', plg) /\ lg = map hin plg /\ brel itb' tb' /\ psound tb' /\
    match rt_tree t with
    | None => st' = st /\ tb' = tb
    | Some u => exists x, pfold u = Ok x /\ held st' (rc x)
    end /\ btouched st st' lg.
Proof.
  intros [_ Rd] Un Tm Rel Sd Fit H. unfold on_tree. destruct (srt_tree h) as [s|], (rt_tree t) as [u|]; try contradiction; cbn [otnames obfits otame] in *.
  - apply reads_rep, (homed eqD) in Rd. destruct Rd as [-> Hc].
    apply u_bind_Ok in H. destruct H as (x & st3 & tr4 & itb3 & lg4 & tr5 & lg5 & H1 & H & -> & ->). inv H.
    destruct (build_sim k u itb tb st x st' tr4 itb' lg4 Tm Hc Un Rel Sd Fit H1)
      as [(u' & tb' & plg & E1 & -> & -> & E4 & E5 & E6 & E7 & E8 & E9) _ Tc].
    rewrite E1. cbn [bind]. do 3 eexists. split; [reflexivity|]. split; [now rewrite !app_nil_r|]. split; [exact E4|]. split; [exact E5|].
    split; [eauto|]. rewrite !app_nil_r. exact Tc.
  - inv H. do 3 eexists. split; [reflexivity|]. split; [reflexivity|]. split; [exact Rel|]. split; [exact Sd|].
    split; [auto|]. intros b. now left.
Qed.

(** The state after a history: the entries, and the results of the latest run still there. *)
Definition bstays (hist : list bevent) (us : list (tree rdata)) : Prop :=
  match hist, us with
  | e :: _, u :: _ => exists x, pfold u = Ok x /\ held (after e) (rc x)
  | _, _ => True
  end.

Lemma bnext_fits st tb (us : list (tree rdata)) u : orderly (u :: us) -> Forall tame_tree us -> state_ok us tb -> psound tb ->
  match us with v :: _ => exists x, pfold v = Ok x /\ held st (rc x) | [] => True end -> bfits st tb u.
Proof.
  intros Od Tm [Us Cv] Sd Old lv n d l r I.
  assert (In0 : In n (names u)) by (eapply subtrees_names; [exact I|]; rewrite names_eq; now left).
  assert (No : (forall w, In w us -> ~ In n (names w)) -> tb (NForkL n) = None /\ tb (NForkR n) = None).
  { intros H.
    assert (Z : forall b, tb (if b : bool then NForkL n else NForkR n) = None).
    { intros b. destruct (tb (if b then NForkL n else NForkR n)) as [e|] eqn:Q; [|reflexivity].
      destruct (Us _ _ Q) as (w & m' & I1 & I2 & I3). elim (H w I1).
      destruct b, I3 as [I3|I3]; try discriminate; injection I3 as <-; exact I2. }
    split; [apply (Z true)|apply (Z false)]. }
  destruct us as [|v older].
  - destruct No as [-> ->]; [intros w []|]. split; discriminate.
  - simpl in Od. destruct Od as (Oh & _ & _ & Od). destruct (Od n In0) as [H|H].
    2: { destruct (No H) as [-> ->]. split; discriminate. }
    destruct Oh as (_ & Ip & Np & _). destruct (name_edge v n Ip H) as (pl & pr & Ed).
    destruct (Cv n pl pr Ed) as [[xl EL] [xr ER]]. destruct Old as (x' & Mp & Hp). destruct Ed as (lv' & d' & Ed). inv Tm.
    assert (G : forall w x m, In w (subtrees v) -> tb m = Some (w, x) -> held st (rc x)).
    { intros w x m Iw Tm'. destruct (build_sub v x' w ltac:(assumption) Mp Iw) as (y & Ey & Inc).
      pose proof (Sd _ _ _ Tm') as E2. rewrite Ey in E2. injection E2 as ->. eapply held_incl; eauto. }
    assert (Is : In pl (subtrees v) /\ In pr (subtrees v)).
    { split; (eapply subtrees_trans; [exact Ed|]; rewrite subtrees_eq; right; apply in_or_app);
        [left|right]; apply subtrees_self. }
    split; intros w x Hw Tx.
    + rewrite EL in Tx. injection Tx as <- <-. exact (G _ _ _ (proj1 Is) EL).
    + rewrite ER in Tx. injection Tx as <- <-. exact (G _ _ _ (proj2 Is) ER).
Qed.

Definition bgood (hist : list bevent) (ts : list (raz_tree E M)) : Prop :=
  undisturbed p hist /\
  Forall2 (fun (e : bevent) (t : raz_tree E M) => tree_reads (within q (before e)) (given e) t) hist ts /\
  Forall (fun t : raz_tree E M => otree_ok (rt_tree t)) ts /\ orderly_points (map contents ts).
Lemma bgood_tail e hist (t : raz_tree E M) ts : bgood (e :: hist) (t :: ts) -> bgood hist ts.
Proof.
  intros (U & F & O & P). split; [exact (undisturbed_tail _ _ _ U)|]. split; [now inv F|]. split; [now inv O|].
  cbn [map orderly_points] in P. tauto.
Qed.

Lemma tame_ok t : tree_ok t -> tame_tree t.
Proof.
  induction t as [lv nm d l r IHl IHr] using tree_induction. intros H. apply tree_ok_case in H.
  destruct H as [(v & H & _)|(lv' & nm' & ml & mr & tl & tr & H & _ & _ & _ & Ol & Or)]; inv H; cbn [tame_tree ends]; [auto|].
  cbn [optP] in *. auto.
Qed.
Lemma tame_trees (ts : list (raz_tree E M)) : Forall (fun t : raz_tree E M => otree_ok (rt_tree t)) ts -> Forall tame_tree (trees ts).
Proof.
  induction 1 as [|t ts H _ IH]; [constructor|]. unfold trees. cbn [flat_map]. apply Forall_app. split; [|exact IH].
  destruct (rt_tree t) as [u|]; constructor; [|constructor]. now apply tame_ok.
Qed.

Lemma bone_step k (e : bevent) hist ts (t : raz_tree E M) itb tb tr itb' : bgood (e :: hist) (t :: ts) ->
  brel itb tb -> psound tb -> state_ok (trees ts) tb -> bstays hist (trees ts) -> (hist = [] -> trees ts = []) ->
  run k (given e) (before e) itb = Ok (result e, after e, tr, itb', entered e) ->
  exists o' tb' plg, body t tb = Ok (o', tb', plg) /\ entered e = map hin plg /\
    brel itb' tb' /\ psound tb' /\ state_ok (trees (t :: ts)) tb' /\ bstays (e :: hist) (trees (t :: ts)) /\
    btouched (before e) (after e) (entered e).
Proof.
  intros (U & F & O & P) Rel Sd So St Em H.
  pose proof (orderly_trees _ O P) as Od. pose proof (tame_trees _ O) as Tm. inv F. inv O.
  assert (Bf : match trees ts with v :: _ => exists x, pfold v = Ok x /\ held (before e) (rc x) | [] => True end).
  { destruct (trees ts) as [|v older] eqn:Et; [exact I|]. destruct hist as [|e' past]; [specialize (Em eq_refl); discriminate|].
    destruct St as (x & Mp & Hp). exists x. split; [exact Mp|]. cbn [undisturbed] in U. destruct U as [_ U].
    unfold rc in *. destruct (rt_tree x) as [w|]; [|apply held_nil]. eapply held_same; eauto. }
  assert (Un : uniq (otnames (rt_tree t)) /\ otame (rt_tree t) /\ obfits (before e) tb (rt_tree t)).
  { unfold trees in Od, Tm. cbn [flat_map] in Od, Tm. fold (trees ts) in Od, Tm.
    destruct (rt_tree t) as [u|]; [|split; [apply uniq_NoDup; constructor|split; exact I]].
    cbn [app] in Od, Tm. inversion Tm. split; [|split; [assumption|eapply bnext_fits; eauto]]. apply (tree_uniq (E := E) (M := M)).
    exact (proj1 (proj2 (orderly_head _ _ Od))). }
  destruct Un as (Un & Tmu & Fit).
  destruct (brt_sim k t (given e) itb tb (before e) _ _ _ _ _ H3 Un Tmu Rel Sd Fit H) as (o' & tb' & plg & E2 & E3 & E4 & E5 & E6 & E7).
  exists o', tb', plg. split; [exact E2|]. split; [exact E3|]. split; [exact E4|]. split; [exact E5|].
  unfold trees. cbn [flat_map]. fold (trees ts). unfold trees in Od. cbn [flat_map] in Od. fold (trees ts) in Od.
  unfold on_tree in E2. destruct (rt_tree t) as [u|]; cbn [app] in *.
  - apply bind_Ok in E2. destruct E2 as ([[y T1] lg1] & E2 & Z). inv Z.
    split; [exact (proj1 (state_step eqD pf u (trees ts) tb y tb' plg Od So E2))|]. split; [|exact E7]. exact E6.
  - destruct E6 as [Es ->]. split; [exact So|]. split; [|exact E7]. unfold bstays. rewrite Es. exact Bf.
Qed.

Lemma bhistory hist itb : ran run hist itb -> forall ts : list (raz_tree E M), bgood hist ts ->
  exists rs tb lgs, runs body (rev ts) no_memos = Ok (rs, tb, lgs) /\ brel itb tb /\ psound tb /\
    state_ok (trees ts) tb /\ bstays hist (trees ts) /\ (hist = [] -> trees ts = []).
Proof.
  induction 1 as [|hist itb k' st x y st' tr itb' lg R IH H]; intros ts G.
  - assert (ts = []) as -> by (destruct G as (_ & F & _); now inv F).
    do 3 eexists. split; [reflexivity|]. split; [intros n; exact I|]. split; [intros n a b; discriminate|].
    split; [apply no_memos_state|]. split; [exact I|reflexivity].
  - destruct ts as [|t ts]; [destruct G as (_ & F & _); inv F|].
    destruct (IH ts (bgood_tail _ _ _ _ G)) as (rs & tb & lgs & Rs & Rel & Sd & So & St & Em).
    destruct (bone_step k' _ hist ts t itb tb tr itb' G Rel Sd So St Em H) as (t' & tb' & plg & E1 & E2 & E3 & E4 & E5 & E6 & E7).
    cbn [rev]. rewrite runs_app, Rs. cbn [bind runs]. rewrite E1. cbn [bind]. do 3 eexists. split; [reflexivity|].
    split; [exact E3|]. split; [exact E4|]. split; [exact E5|]. split; [exact E6|discriminate].
Qed.

Theorem build_again (t t' : raz_tree E M) older pre mid mid' post e hist itb :
  Forall (fun t : raz_tree E M => tree_reached false t) (t' :: t :: older) -> orderly_points (map contents (t' :: t :: older)) ->
  contents t = pre ++ mid ++ post -> contents t' = pre ++ mid' ++ post ->
  ran run (e :: hist) itb -> undisturbed p (e :: hist) ->
  Forall2 (fun (e : bevent) (t : raz_tree E M) => tree_reads (within q (before e)) (given e) t) (e :: hist) (t' :: t :: older) ->
  length (entered e) <= 1 + 2 * (seen_from_right pre + length (marks mid') + seen_from_left 0%N post) /\
  btouched (before e) (after e) (entered e).
Proof.
  intros Re Op C C' R U F.
  assert (G : bgood (e :: hist) (t' :: t :: older)).
  { split; [exact U|]. split; [exact F|]. split; [|exact Op]. exact (MemoHistory.reached_ok t t' older Re). }
  assert (R' : exists k tab tr, ran run hist tab /\ run k (given e) (before e) tab = Ok (result e, after e, tr, itb, entered e)).
  { inversion R as [|h tab k st x y st' tr tab' lg R0 H0 E0 E1]. subst. eauto 10. }
  destruct R' as (k & tab & tr & R0 & H0).
  destruct (bhistory hist tab R0 _ (bgood_tail _ _ _ _ G)) as (rs & tb & lgs & Rs & Rel & Sd & So & St & Em).
  destruct (bone_step k e hist _ t' tab tb tr itb G Rel Sd So St Em H0) as (x' & tb' & plg & E1 & E2 & E3 & E4 & E5 & E6 & E7).
  split; [|exact E7]. rewrite E2, map_length. exact (up_cost eqD t t' older pre mid mid' post Re Op C C' pf _ _ _ _ _ _ Rs E1).
Qed.
End Fold.

(** ** The operations of the Raz tree *)
Section Raz.
Context {E M : Type} {RM : RazMeta E M} (eqD : forall x y : tree_data E M, {x = y} + {x <> y}) (p : list name).
Notation rdata := (tree_data E M).
Notation rstore := (store (level * list E) rdata).
Notation X := (raz_tree E M).
Notation held := (held eqD).
Notation upto := (upto (Nsp := p)).
Notation hres := (hres p).
Notation rc := (rc p).
Implicit Types (st : rstore) (itb : itab rdata (stree rdata) (sraz_tree E M)).

Lemma bin_cells st itb (t1 t2 : tree rdata) l n s st' tr itb' lg : held st (cells p t1) -> held st (cells p t2) ->
  uniq (oroot n ++ tnames t1 ++ tnames t2) -> u_bin (Nsp := p) (handle p t1) l n (handle p t2) st itb = Ok (s, st', tr, itb', lg) ->
  itb' = itb /\ lg = [] /\ exists t, bin t1 l n t2 = Ok t /\ s = handle p t /\ upto (oroot n) st st' /\ held st' (cells p t) /\
    forall st2 : rstore, held st2 (cells p t) <-> held st2 tr /\ held st2 (cells p t1) /\ held st2 (cells p t2).
Proof.
  intros H1 H2 Un H. unfold u_bin in H.
  destruct (peek_held eqD (Nsp := p) st itb (Some t1) H1) as (tr1 & X1 & Y1). cbn [ohandle ocells peek_op option_map] in *.
  destruct (peek_held eqD (Nsp := p) st itb (Some t2) H2) as (tr2 & X2 & Y2). cbn [ohandle ocells peek_op option_map] in *.
  rewrite (u_bind_eq _ _ _ _ _ _ _ _ _ X1), (u_bind_eq _ _ _ _ _ _ _ _ _ X2) in H.
  apply bind_Ok in H. destruct H as ([[[[y st3] tr3] itb3] lg3] & H & Z). inv Z.
  apply bind_Ok in H. destruct H as ([[[[y st4] tr4] itb4] lg4] & H & Z). inv Z.
  apply u_bind_Ok in H. destruct H as (td & st5 & tr5 & itb5 & lg5 & tr6 & lg6 & H3 & H & -> & ->).
  unfold u_lift in H3. apply bind_Ok in H3. destruct H3 as (d & Hd & Z). inv Z.
  apply u_bind_Ok in H. destruct H as (o & st6 & tr7 & itb6 & lg7 & tr8 & lg8 & H4 & H & -> & ->).
  assert (B : bin t1 l n t2 = Ok (Node l n td (Some t1) (Some t2))).
  { unfold bin. rewrite Hd. cbn [bind]. now destruct n. }
  destruct n as [n|]; cbn [u_tree_new] in H4; inv H4; cbn [u_lift unwrap bind] in H; inv H; (split; [reflexivity|]); (split; [reflexivity|]);
    eexists; (split; [exact B|]); (split; [reflexivity|]).
  - split; [apply (write_upto (Nsp := p))|].
    assert (U : upto [n] st5 (write st5 (p, n) (CNode td (Some (handle p t1)) (Some (handle p t2))))) by apply (write_upto (Nsp := p)).
    assert (W : held (write st5 (p, n) (CNode td (Some (handle p t1)) (Some (handle p t2)))) [((p, n), (td, Some (handle p t1), Some (handle p t2)))]).
    { unfold IncProofs.held. cbn [forallb]. rewrite andb_true_r. apply holds_eq. cbn [tree_look]. now rewrite write_same. }
    split.
    + rewrite cells_eq, !held_app. cbn [ohandle ocells]. split; [exact W|].
      split; (eapply (held_upto eqD (Nsp := p) p (oroot (Some n))); [right|exact U|assumption]); names.
    + intros st2. rewrite cells_eq, !held_app. cbn [ohandle ocells]. specialize (Y1 st2). specialize (Y2 st2). pose proof (held_nil eqD st2). tauto.
  - split; [apply upto_refl|]. split.
    + rewrite cells_eq, !held_app. cbn [ohandle ocells]. split; [apply held_nil|]. split; assumption.
    + intros st2. rewrite cells_eq, !held_app. cbn [ohandle ocells]. specialize (Y1 st2). specialize (Y2 st2). pose proof (held_nil eqD st2). tauto.
Qed.
Lemma mk_cells st itb o s st' tr itb' lg : held st (ocells p o) -> u_mk_raz_tree (ohandle p o) st itb = Ok (s, st', tr, itb', lg) ->
  itb' = itb /\ lg = [] /\ st' = st /\ exists x, mk_raz_tree o = Ok x /\ s = hres x /\ rt_tree x = o /\
    forall st2 : rstore, held st2 (ocells p o) -> held st2 tr.
Proof.
  intros H0 H. unfold u_mk_raz_tree in H. destruct (treetop_held eqD (Nsp := p) st itb o H0) as (tr1 & X1 & Y1).
  apply u_bind_Ok in H. destruct H as (m & st2 & tr2 & itb2 & lg2 & tr3 & lg3 & H & Z & -> & ->). inv Z.
  change (@path p) with p in X1. rewrite X1 in H. apply bind_Ok in H. destruct H as (m' & Hm & Z). inv Z.
  repeat (split; [reflexivity|]). unfold mk_raz_tree. rewrite Hm. cbn [bind]. eexists. repeat (split; [reflexivity|]).
  intros st3 W. rewrite app_nil_r. exact (Y1 st3 W).
Qed.
Lemma join_cells st itb (a b : X) lv nm o st' tr itb' lg : held st (rc a) -> held st (rc b) -> uniq (oroot nm ++ rtnames a ++ rtnames b) ->
  u_rt_join (Nsp := p) (hres a) lv nm (hres b) st itb = Ok (Some o, st', tr, itb', lg) ->
  itb' = itb /\ lg = [] /\ exists x, rt_join a lv nm b = Ok (Some x) /\ o = hres x /\ upto (oroot nm) st st' /\ held st' (rc x) /\
    forall st2 : rstore, held st2 (rc x) <-> held st2 tr /\ held st2 (rc a) /\ held st2 (rc b).
Proof.
  intros Ha Hb Un H. unfold BuildIncCost.rc, rtnames in *. unfold u_rt_join in H. unfold rt_join.
  cbn [BuildIncCost.hres srt_tree] in H. destruct (rt_tree a) as [u|], (rt_tree b) as [v|]; try discriminate. cbn [ohandle ocells otnames] in *.
  apply u_bind_Ok in H. destruct H as (t & st2 & tr2 & itb2 & lg2 & tr3 & lg3 & H1 & H & -> & ->).
  apply u_bind_Ok in H. destruct H as (m & st3 & tr4 & itb3 & lg4 & tr5 & lg5 & H2 & H & -> & ->). inv H.
  destruct (bin_cells _ _ _ _ _ _ _ _ _ _ _ Ha Hb Un H1) as (-> & -> & w & B1 & -> & B3 & B4 & B5).
  destruct (mk_cells _ _ (Some w) _ _ _ _ _ B4 H2) as (-> & -> & -> & x & C1 & -> & C3 & C4).
  split; [reflexivity|]. split; [reflexivity|]. exists x. rewrite B1. cbn [bind]. rewrite C1. cbn [bind]. rewrite C3. cbn [ocells].
  split; [reflexivity|]. split; [reflexivity|]. split; [exact B3|]. split; [exact B4|].
  intros st4. rewrite !held_app. specialize (C4 st4). cbn [ocells] in C4. specialize (B5 st4). pose proof (held_nil eqD st4). tauto.
Qed.
Lemma vec_cells {Nsp : here} st itb v s st' tr itb' lg : u_vec_tree v st itb = Ok (s, st', tr, itb', lg) ->
  itb' = itb /\ lg = [] /\ st' = st /\ exists x, vec_tree v = Ok x /\ s = hres x /\ rc x = [] /\ forall st2 : rstore, held st2 tr.
Proof.
  unfold u_vec_tree, u_rt_from_vec, vec_tree, rt_from_vec, rt_empty. intros H. destruct v as [|e v].
  - apply u_bind_Ok in H. destruct H as (o & st2 & tr2 & itb2 & lg2 & tr3 & lg3 & H1 & H & -> & ->). inv H1.
    destruct (mk_cells _ _ None _ _ _ _ _ (held_nil eqD _) H) as (-> & -> & -> & x & C1 & -> & C3 & C4).
    repeat (split; [reflexivity|]). exists x. cbn [bind]. split; [exact C1|]. split; [reflexivity|]. unfold BuildIncCost.rc. rewrite C3.
    split; [reflexivity|]. intros st4. apply C4. apply held_nil.
  - apply u_bind_Ok in H. destruct H as (o & st2 & tr2 & itb2 & lg2 & tr3 & lg3 & H1 & H & -> & ->).
    apply u_bind_Ok in H1. destruct H1 as (t & st3 & tr4 & itb3 & lg4 & tr5 & lg5 & H1 & H2 & -> & ->).
    apply u_bind_Ok in H2. destruct H2 as (m & st4 & tr6 & itb4 & lg6 & tr7 & lg7 & H2 & H3 & -> & ->). inv H3. inv H.
    unfold u_leaf in H1. apply u_bind_Ok in H1. destruct H1 as (o & st5 & tr8 & itb5 & lg8 & tr9 & lg9 & H1 & H3 & -> & ->). inv H1. inv H3.
    destruct (mk_cells _ _ (Some (Node 0%N None (Leaf (e :: v)) None None)) _ _ _ _ _ (held_nil eqD _) H2) as (-> & -> & -> & x & C1 & -> & C3 & C4).
    repeat (split; [reflexivity|]). exists x. unfold leaf, tree_new. cbn [unwrap bind]. rewrite C1. cbn [bind]. unfold BuildIncCost.rc. rewrite C3.
    repeat (split; [reflexivity|]). intros st6. rewrite !held_app. repeat split; try apply held_nil. apply C4. apply held_nil.
Qed.
End Raz.

(** ** The examples *)
Section Build.
Context {E M : Type} {RM : RazMeta E M} (eqD : forall x y : tree_data E M, {x = y} + {x <> y}) {Nsp : here} (inner : name).
Notation rdata := (tree_data E M).
Notation rstore := (store (level * list E) rdata).
Notation X := (raz_tree E M).
Notation p := (inner :: @path Nsp).
Notation held := (held eqD).
Notation upto := (upto (Nsp := p)).
Notation hres := (hres p).
Notation rc := (rc p).
Implicit Types (st : rstore) (itb : itab rdata (stree rdata) (sraz_tree E M)).

Definition bin_celled (ub : sraz_tree E M -> level -> option name -> sraz_tree E M -> um (level * list E) rdata (stree rdata) (sraz_tree E M) (sraz_tree E M))
    (pb : X -> level -> option name -> X -> res X) : Prop :=
  forall st itb lv nm a b s st' tr itb' lg, held st (rc a) -> held st (rc b) -> uniq (oroot nm ++ rtnames a ++ rtnames b) ->
  ub (hres a) lv nm (hres b) st itb = Ok (s, st', tr, itb', lg) ->
  itb' = itb /\ lg = [] /\ exists x, pb a lv nm b = Ok x /\ s = hres x /\ upto (oroot nm) st st' /\ held st' (rc x) /\
    forall st2 : rstore, held st2 (rc x) <-> held st2 tr /\ held st2 (rc a) /\ held st2 (rc b).
Definition bin_keeps (pb : X -> level -> option name -> X -> res X) : Prop :=
  forall a lv nm b x, pb a lv nm b = Ok x -> incl (rc a) (rc x) /\ incl (rc b) (rc x).

Lemma hres_empty (x : X) : u_is_empty (hres x) = rt_is_empty x.
Proof. unfold u_is_empty, rt_is_empty. cbn [BuildIncCost.hres srt_tree]. now destruct (rt_tree x). Qed.
Lemma rc_empty (x : X) : rt_is_empty x = true -> rc x = [].
Proof. unfold rt_is_empty, BuildIncCost.rc. now destruct (rt_tree x). Qed.
Lemma bin_incl t1 l n t2 t : bin t1 l n t2 = Ok t -> incl (cells p t1) (cells p t) /\ incl (cells p t2) (cells (A := rdata) p t).
Proof.
  unfold bin. intros H. apply bind_Ok in H. destruct H as (d & _ & H). apply new_Ok in H. subst t. rewrite cells_eq. cbn [ocells].
  split; intros z Hz; apply in_or_app; right; apply in_or_app; solve [left; exact Hz|right; exact Hz].
Qed.
Lemma join_incl (a : X) lv nm b x : rt_join a lv nm b = Ok (Some x) -> incl (rc a) (rc x) /\ incl (rc b) (rc x).
Proof.
  unfold rt_join, BuildIncCost.rc. destruct (rt_tree a) as [u|], (rt_tree b) as [v|]; try discriminate. intros H.
  apply bind_Ok in H. destruct H as (z & H & H1). apply bind_Ok in H1. destruct H1 as (w & H1 & Z). inv Z.
  unfold mk_raz_tree in H1. apply bind_Ok in H1. destruct H1 as (m & _ & Z). inv Z. exact (bin_incl _ _ _ _ _ H).
Qed.
Lemma empty_cells (x : X) : rt_empty = Ok x -> rc x = [].
Proof. unfold rt_empty, mk_raz_tree. intros H. apply bind_Ok in H. destruct H as (m & _ & Z). now inv Z. Qed.

Lemma reverse_bin_cells : bin_celled (u_reverse_bin inner) reverse_bin.
Proof.
  intros st itb lv nm a b s st' tr itb' lg Ha Hb Un H. unfold u_reverse_bin in H. unfold reverse_bin. rewrite !hres_empty in H.
  destruct (rt_is_empty a) eqn:Ea, (rt_is_empty b) eqn:Eb.
  - destruct (mk_cells eqD p _ _ None _ _ _ _ _ (held_nil eqD _) H) as (-> & -> & -> & x & C1 & -> & C3 & C4).
    repeat (split; [reflexivity|]). exists x. unfold rt_empty. rewrite C1, (rc_empty _ Ea), (rc_empty _ Eb), (empty_cells _ C1).
    split; [reflexivity|]. split; [reflexivity|]. split; [apply (upto_sub []); [names|apply upto_refl]|]. split; [apply held_nil|].
    intros st2. specialize (C4 st2 (held_nil eqD st2)). tauto.
  - inv H. repeat (split; [reflexivity|]). exists b. rewrite (rc_empty _ Ea).
    split; [reflexivity|]. split; [reflexivity|]. split; [apply (upto_sub []); [names|apply upto_refl]|]. split; [exact Hb|].
    intros st2. pose proof (held_nil eqD st2). tauto.
  - inv H. repeat (split; [reflexivity|]). exists a. rewrite (rc_empty _ Eb).
    split; [reflexivity|]. split; [reflexivity|]. split; [apply (upto_sub []); [names|apply upto_refl]|]. split; [exact Ha|].
    intros st2. pose proof (held_nil eqD st2). tauto.
  - apply u_bind_Ok in H. destruct H as (o & st2 & tr2 & itb2 & lg2 & tr3 & lg3 & H & H1 & -> & ->). destruct o as [o|]; [|discriminate]. inv H1.
    assert (Un' : uniq (oroot nm ++ rtnames b ++ rtnames a)) by names.
    destruct (join_cells eqD p _ _ _ _ _ _ _ _ _ _ _ Hb Ha Un' H) as (-> & -> & x & B1 & -> & B3 & B4 & B5).
    repeat (split; [reflexivity|]). exists x. rewrite B1. cbn [bind unwrap]. split; [reflexivity|]. split; [reflexivity|]. split; [exact B3|].
    split; [exact B4|]. intros st3. rewrite app_nil_r. rewrite B5. tauto.
Qed.
Lemma reverse_bin_keeps : bin_keeps reverse_bin.
Proof.
  intros a lv nm b x H. unfold reverse_bin in H. destruct (rt_is_empty a) eqn:Ea, (rt_is_empty b) eqn:Eb.
  - rewrite (rc_empty _ Ea), (rc_empty _ Eb). split; intros z [].
  - inv H. rewrite (rc_empty _ Ea). split; [intros z []|apply incl_refl].
  - inv H. rewrite (rc_empty _ Eb). split; [apply incl_refl|intros z []].
  - apply bind_Ok in H. destruct H as (o & H & H1). destruct o as [o|]; [|discriminate]. inv H1.
    destruct (join_incl _ _ _ _ _ H) as [I1 I2]. auto.
Qed.

Lemma filter_bin_cells : bin_celled (u_filter_bin inner) filter_bin.
Proof.
  intros st itb lv nm a b s st' tr itb' lg Ha Hb Un H. unfold u_filter_bin in H. unfold filter_bin. rewrite !hres_empty in H.
  destruct (rt_is_empty a) eqn:Ea, (rt_is_empty b) eqn:Eb.
  - destruct (mk_cells eqD p _ _ None _ _ _ _ _ (held_nil eqD _) H) as (-> & -> & -> & x & C1 & -> & C3 & C4).
    repeat (split; [reflexivity|]). exists x. unfold rt_empty. rewrite C1, (rc_empty _ Ea), (rc_empty _ Eb), (empty_cells _ C1).
    split; [reflexivity|]. split; [reflexivity|]. split; [apply (upto_sub []); [names|apply upto_refl]|]. split; [apply held_nil|].
    intros st2. specialize (C4 st2 (held_nil eqD st2)). tauto.
  - inv H. repeat (split; [reflexivity|]). exists b. rewrite (rc_empty _ Ea).
    split; [reflexivity|]. split; [reflexivity|]. split; [apply (upto_sub []); [names|apply upto_refl]|]. split; [exact Hb|].
    intros st2. pose proof (held_nil eqD st2). tauto.
  - inv H. repeat (split; [reflexivity|]). exists a. rewrite (rc_empty _ Eb).
    split; [reflexivity|]. split; [reflexivity|]. split; [apply (upto_sub []); [names|apply upto_refl]|]. split; [exact Ha|].
    intros st2. pose proof (held_nil eqD st2). tauto.
  - apply u_bind_Ok in H. destruct H as (o & st2 & tr2 & itb2 & lg2 & tr3 & lg3 & H & H1 & -> & ->). destruct o as [o|]; [|discriminate]. inv H1.
    assert (Un' : uniq (oroot nm ++ rtnames a ++ rtnames b)) by names.
    destruct (join_cells eqD p _ _ _ _ _ _ _ _ _ _ _ Ha Hb Un' H) as (-> & -> & x & B1 & -> & B3 & B4 & B5).
    repeat (split; [reflexivity|]). exists x. rewrite B1. cbn [bind unwrap]. split; [reflexivity|]. split; [reflexivity|]. split; [exact B3|].
    split; [exact B4|]. intros st3. rewrite app_nil_r. rewrite B5. tauto.
Qed.
Lemma filter_bin_keeps : bin_keeps filter_bin.
Proof.
  intros a lv nm b x H. unfold filter_bin in H. destruct (rt_is_empty a) eqn:Ea, (rt_is_empty b) eqn:Eb.
  - rewrite (rc_empty _ Ea), (rc_empty _ Eb). split; intros z [].
  - inv H. rewrite (rc_empty _ Ea). split; [intros z []|apply incl_refl].
  - inv H. rewrite (rc_empty _ Eb). split; [apply incl_refl|intros z []].
  - apply bind_Ok in H. destruct H as (o & H & H1). destruct o as [o|]; [|discriminate]. inv H1.
    destruct (join_incl _ _ _ _ _ H) as [I1 I2]. auto.
Qed.

Variable g : list E -> list E.
Variable ub : sraz_tree E M -> level -> option name -> sraz_tree E M -> um (level * list E) rdata (stree rdata) (sraz_tree E M) (sraz_tree E M).
Variable pb : X -> level -> option name -> X -> res X.
Hypothesis ub_cells : bin_celled ub pb.
Hypothesis pb_names : bin_named pb.
Hypothesis pb_keeps : bin_keeps pb.
Notation onms := (onms (@rtnames E M)).
Notation pf := (pf g pb).
Notation sf := (sf g ub).

Lemma gauged_agree st itb d lv nm l r s' st' tr itb' lg : held st (orc p l) -> held st (orc p r) -> ends d l r ->
  uniq (oroot nm ++ onms l ++ onms r) -> sf (ohres p l) d lv nm (ohres p r) st itb = Ok (s', st', tr, itb', lg) ->
  itb' = itb /\ lg = [] /\ exists x, pf l d lv nm r = Ok x /\ s' = hres x /\ upto (oroot nm) st st' /\ held st' (rc x) /\
    forall st2 : rstore, held st2 (rc x) <-> held st2 tr /\ held st2 (orc p l) /\ held st2 (orc p r).
Proof.
  intros Hl Hr En Un H. unfold BuildIncProofs.sf, u_gauged in H.
  assert (B : match ohres p l, ohres p r with
      | None, None => u_lift (Panic "branch with no data")
      | Some x, None => u_ret x
      | None, Some x => u_ret x
      | Some x1, Some x2 => ub x1 lv nm x2
      end st itb = Ok (s', st', tr, itb', lg) -> itb' = itb /\ lg = [] /\ exists x, match l, r with
      | None, None => Panic "branch with no data"
      | Some x, None => Ok x
      | None, Some x => Ok x
      | Some x1, Some x2 => pb x1 lv nm x2
      end = Ok x /\ s' = hres x /\ upto (oroot nm) st st' /\ held st' (rc x) /\
    forall st2 : rstore, held st2 (rc x) <-> held st2 tr /\ held st2 (orc p l) /\ held st2 (orc p r)).
  { clear H En. intros H. destruct l as [a|], r as [b|]; cbn [ohres option_map orc BuildIncProofs.onms] in *; [| | |discriminate].
    - exact (ub_cells _ _ _ _ _ _ _ _ _ _ _ Hl Hr Un H).
    - inv H. repeat (split; [reflexivity|]). exists a.
      split; [reflexivity|]. split; [reflexivity|]. split; [apply (upto_sub []); [names|apply upto_refl]|]. split; [exact Hl|].
      intros st2. pose proof (held_nil eqD st2). tauto.
    - inv H. repeat (split; [reflexivity|]). exists b.
      split; [reflexivity|]. split; [reflexivity|]. split; [apply (upto_sub []); [names|apply upto_refl]|]. split; [exact Hr|].
      intros st2. pose proof (held_nil eqD st2). tauto. }
  destruct d as [|cl cr|v]; [exact (B H)|exact (B H)|]. cbn [ends] in En. destruct En as [-> ->]. cbn [orc].
  destruct (vec_cells eqD p _ _ _ _ _ _ _ _ H) as (-> & -> & -> & x & C1 & -> & C3 & C4).
  repeat (split; [reflexivity|]). exists x. rewrite C3. split; [exact C1|]. split; [reflexivity|].
  split; [apply (upto_sub []); [names|apply upto_refl]|]. split; [apply held_nil|].
  intros st2. specialize (C4 st2). pose proof (held_nil eqD st2). tauto.
Qed.
Lemma gauged_keeps l d lv nm r x : pf l d lv nm r = Ok x -> ends d l r -> incl (orc p l) (rc x) /\ incl (orc p r) (rc x).
Proof.
  unfold BuildIncProofs.pf. intros H En. assert (B : match l, r with
      | None, None => Panic "branch with no data"
      | Some x, None => Ok x
      | None, Some x => Ok x
      | Some x1, Some x2 => pb x1 lv nm x2
      end = Ok x -> incl (orc p l) (rc x) /\ incl (orc p r) (rc x)).
  { clear H En. intros H. destruct l as [a|], r as [b|]; cbn [orc]; [exact (pb_keeps _ _ _ _ _ H)| | |discriminate]; inv H;
      (split; [try apply incl_refl; intros z []|try apply incl_refl; intros z []]). }
  destruct d as [|cl cr|v]; [exact (B H)|exact (B H)|]. cbn [ends] in En. destruct En as [-> ->]. split; intros z [].
Qed.

Theorem gauged_again (q : list name) (t t' : X) older pre mid mid' post e hist itb : q <> p ->
  Forall (fun t : X => tree_reached false t) (t' :: t :: older) -> orderly_points (map contents (t' :: t :: older)) ->
  contents t = pre ++ mid ++ post -> contents t' = pre ++ mid' ++ post ->
  ran (fun k => u_rt_fold_up_gauged eqD k (fun v => u_vec_tree (g v)) ub) (e :: hist) itb -> undisturbed p (e :: hist) ->
  Forall2 (fun e (t : X) => tree_reads (within q (before e)) (given e) t) (e :: hist) (t' :: t :: older) ->
  length (entered e) <= 1 + 2 * (seen_from_right pre + length (marks mid') + seen_from_left 0%N post) /\
  forall b, after e b = before e b \/ fst b = p /\ exists h, In h (entered e) /\ st_name h = Some (snd b).
Proof.
  intros D Re Op C C' R U F.
  exact (build_again eqD q p D pf sf gauged_agree (pf_names g pb pb_names) gauged_keeps t t' older pre mid mid' post e hist itb Re Op C C' R U F).
Qed.
End Build.
