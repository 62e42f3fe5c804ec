(** * What a rerun of the memoised tree_to_list over stores enters and writes. *)

From Verif Require Import Base BaseFacts Spec SpecRaz LevelTreeModel TreeSpec TreeProofs TreeCursorModel RazMetaModel RazModel MemoModel
  MemoSpec MemoProofs MemoCost MemoLR MemoHistory LrReset RazView RazScripts RazProofs RazReach StoreModel StoreSpec StoreScripts StoreProofs StoreRaz
  StoreHistory StoreNs StoreMapProofs IncModel IncSpec IncProofs IncCost IncMapCost AccumModel ListIncModel ListIncSpec ListIncProofs.

Section Fold.
Context {T A C R : Type} (eqA : forall x y : A, {x = y} + {x <> y}) (eqC : forall x y : C, {x = y} + {x <> y})
  (eqR : forall x y : R, {x = y} + {x <> y}) (q : list name) {Nsp : here}.
Notation wm := (wm T A C (stree A * option name * R) R).
Context (fn : R -> A -> level -> option name -> R * list (loc * C)) (node : R -> A -> level -> option name -> wm R).
Hypothesis node_eq : forall a d l n st cs tb,
  node a d l n st cs tb = Ok (fst (fn a d l n), puts cs (snd (fn a d l n)), map cellseen (snd (fn a d l n)), tb, []).
Hypothesis fn_at : forall a d lv n x, In x (snd (fn a d lv n)) -> exists m, n = Some m /\ fst x = (path, m).
Hypothesis fn_one : forall a d lv n cs, chold (puts cs (snd (fn a d lv n))) (snd (fn a d lv n)).
Notation plain := (plain fn).
Notation writes := (writes fn).
Notation owrites := (owrites fn).
Notation opure := (opure fn).
Notation pure := (t_fold_lr_meta plain).
Notation quiet := (quiet fn).
Notation oquiet := (oquiet fn).
Notation held := (held eqA).
Notation wheld := (wheld eqA eqC).
Notation hin := (handle q).
Notation cin := (cells q).
Notation key := (tree A * option name * R)%type.
Notation fold := (m_fold_lr_meta eqA eqR plain).
Notation tab := (mtab key R).
Implicit Types (st : store T A) (cs : wcells C) (t u : tree A) (tb : tab) (itb : wtab A C (stree A * option name * R) R).
Notation psound := (sound (lr_pure plain)).

Definition wrel itb tb : Prop :=
  forall n, match itb (path, n), tb n with
            | None, None => True
            | Some e, Some (t, s, a, r) => we_arg e = (hin t, s, a) /\ we_res e = r /\
                forall st cs, wheld st cs (we_seen e) <-> held st (cin t) /\ chold cs (writes t s a)
            | _, _ => False
            end.
(** What is on record as written for the branches of this tree is still there. *)
Definition wfits cs tb t : Prop := forall lv n d l r, In (Node lv (Some n) d l r) (subtrees t) ->
  (forall u s a x, l = Some u -> tb (NForkL n) = Some (u, s, a, x) -> chold cs (writes u s a)) /\
  (forall u s a x, r = Some u -> tb (NForkR n) = Some (u, s, a, x) -> chold cs (writes u s a)).
Definition wforks (N : list name) tb tb' : Prop :=
  forall n, tb' n = tb n \/ exists m, In m N /\ (n = NForkL m \/ n = NForkR m).
Definition wtouched cs cs' (lg : list (stree A)) : Prop :=
  forall b, cs' b = cs b \/ fst b = path /\ exists h, In h lg /\ st_name h = Some (snd b).

Record wpost t s a (body : tab -> res (R * tab * list (tree A))) tb cs y cs' tr itb' lg : Prop := {
  wpo_run : exists tb' plg, body tb = Ok (y, tb', plg) /\ y = pure t s a /\ lg = map hin plg /\ wrel itb' tb' /\ psound tb' /\
    wforks (tnames t) tb tb' /\ chold cs' (writes t s a) /\
    (forall st2 cs2, wheld st2 cs2 tr <-> held st2 (cin t) /\ chold cs2 (writes t s a));
  wpo_upto : wupto (tnames t) cs cs';
  wpo_touched : wtouched cs cs' lg
}.

Lemma wtouched_refl cs lg : wtouched cs cs lg.
Proof. intros b. now left. Qed.
Lemma wtouched_trans cs cs1 cs2 lg : wtouched cs cs1 lg -> wtouched cs1 cs2 lg -> wtouched cs cs2 lg.
Proof. intros H1 H2 b. destruct (H2 b) as [Z|Z]; [|auto]. destruct (H1 b) as [Z1|Z1]; [|auto]. left. congruence. Qed.
Lemma wtouched_sub cs cs' lg lg' : (forall h, In h lg -> In h lg') -> wtouched cs cs' lg -> wtouched cs cs' lg'.
Proof. intros S H b. destruct (H b) as [Z|(Ep & h & I & Z)]; [auto|]. right. split; [exact Ep|]. eauto. Qed.
Lemma wupto_refl L cs : wupto L cs cs.
Proof. intros b _. reflexivity. Qed.
Lemma wupto_sub L L' cs cs' : sub L L' -> wupto L cs cs' -> wupto L' cs cs'.
Proof. intros S U b [D|D]; apply U; [now left|right]. specialize (S (snd b)). lia. Qed.

(** A call is answered from the one table exactly when it is from the other. *)
Lemma wcall_sim n t s a body ibody itb tb st cs y cs' tr itb' lg :
  (forall m, n = Some m -> forall x, tb m = Some (t, s, a, x) -> chold cs (writes t s a)) ->
  held st (cin t) -> wrel itb tb -> psound tb ->
  (forall y cs' tr itb' lg, ibody st cs itb = Ok (y, cs', tr, itb', lg) -> wpost t s a body tb cs y cs' tr itb' lg) ->
  w_memo_opt eqA eqC (slr_same eqA eqR) n (hin t, s, a) ibody st cs itb = Ok (y, cs', tr, itb', lg) ->
  exists tb' plg, memo_opt (lr_same eqA eqR) n (t, s, a) body tb = Ok (y, tb', plg) /\ y = pure t s a /\ lg = map hin plg /\
    wrel itb' tb' /\ psound tb' /\
    (forall m, tb' m = tb m \/ Some m = n \/ exists p, In p (tnames t) /\ (m = NForkL p \/ m = NForkR p)) /\
    chold cs' (writes t s a) /\ (forall st2 cs2, wheld st2 cs2 tr <-> held st2 (cin t) /\ chold cs2 (writes t s a)) /\
    wupto (tnames t) cs cs' /\ wtouched cs cs' lg.
Proof.
  intros Fit Hc Rel Sd B H. destruct n as [n|]; cbn [w_memo_opt memo_opt] in *.
  2: { destruct (B _ _ _ _ _ H) as [(tb' & plg & E1 & E2 & E3 & E4 & E5 & E6 & E7 & E8) U Tc].
       exists tb', plg. repeat (split; [assumption|]). split; [|auto]. intros m. destruct (E6 m) as [Z|Z]; auto. }
  unfold w_memo in H. unfold memo.
  assert (Rr : (do ' (r, cs', s0, tab', lg) <- ibody st cs itb; Ok (r, cs', s0, w_set tab' (path, n) (WEntry (hin t, s, a) s0 r), lg)) = Ok (y, cs', tr, itb', lg) ->
    exists tb' plg, (do ' (r, tab', lg) <- body tb; Ok (r, memo_set tab' n (t, s, a) r, lg)) = Ok (y, tb', plg) /\ y = pure t s a /\ lg = map hin plg /\
    wrel itb' tb' /\ psound tb' /\
    (forall m, tb' m = tb m \/ Some m = Some n \/ exists p, In p (tnames t) /\ (m = NForkL p \/ m = NForkR p)) /\
    chold cs' (writes t s a) /\ (forall st2 cs2, wheld st2 cs2 tr <-> held st2 (cin t) /\ chold cs2 (writes t s a)) /\
    wupto (tnames t) cs cs' /\ wtouched cs cs' lg).
  { intros Q. apply bind_Ok in Q. destruct Q as ([[[[r cs1] tr1] itb1] lg1] & Q & Z). inv Z.
    destruct (B _ _ _ _ _ Q) as [(tb' & plg & E1 & E2 & E3 & E4 & E5 & E6 & E7 & E8) U Tc].
    rewrite E1. cbn [bind]. exists (memo_set tb' n (t, s, a) y), plg. split; [reflexivity|]. split; [exact E2|]. split; [exact E3|].
    split; [|split; [|split; [|auto]]].
    - intros m. unfold w_set, memo_set. specialize (E4 m). destruct (name_eq_dec m n) as [->|Ne].
      + destruct (loc_eq_dec (path, n) (path, n)); [|congruence]. cbn [we_arg we_res we_seen]. auto.
      + destruct (loc_eq_dec (path, m) (path, n)); [congruence|exact E4].
    - apply sound_set; [exact E5|]. cbn [lr_pure]. now rewrite E2.
    - intros m. unfold memo_set. destruct (name_eq_dec m n) as [->|]; [auto|]. destruct (E6 m) as [Z|Z]; auto. }
  pose proof (Rel n) as Rn. destruct (itb (path, n)) as [e|], (tb n) as [[[[t' s'] a'] r]|] eqn:Tn; try contradiction; [|exact (Rr H)].
  destruct Rn as (Ea & Er & Es). rewrite Ea in H.
  destruct (lr_same eqA eqR (t, s, a) (t', s', a')) eqn:Sm.
  - apply lr_same_eq in Sm. injection Sm as <- <- <-.
    assert (Y0 : slr_same eqA eqR (hin t, s, a) (hin t, s, a) = true) by now apply slr_same_eq. rewrite Y0 in H.
    pose proof (Fit n eq_refl r Tn) as Ho.
    assert (Y : forallb (wholds eqA eqC st cs) (we_seen e) = true) by (apply Es; auto). rewrite Y in H. cbn [andb] in H. inv H.
    exists tb, []. pose proof (Sd _ _ _ Tn) as Sn. cbn [lr_pure] in Sn. injection Sn as Sn.
    split; [reflexivity|]. split; [now symmetry|]. split; [reflexivity|]. split; [exact Rel|]. split; [exact Sd|].
    split; [auto|]. split; [exact Ho|]. split; [exact Es|]. split; [apply wupto_refl|apply wtouched_refl].
  - destruct (slr_same eqA eqR (hin t, s, a) (hin t', s', a') && forallb (wholds eqA eqC st cs) (we_seen e)) eqn:Q; [|exact (Rr H)].
    apply andb_true_iff in Q. destruct Q as [Q1 Q2]. apply slr_same_eq in Q1. injection Q1 as Q1 <- <-.
    assert (Q3 : held st (cin t')) by (eapply Es; exact Q2).
    pose proof (handle_inj eqA q st t t' Q1 Hc Q3) as W. subst t'. pose proof (proj2 (lr_same_iff eqA eqR (t, s, a) (t, s, a)) eq_refl). congruence.
Qed.

Lemma quiet_sub lv nm d l r : quiet (Node lv nm d l r) -> oquiet l /\ oquiet r.
Proof. cbn [ListIncProofs.quiet]. tauto. Qed.
Lemma quiet_subtrees t : forall u, quiet t -> In u (subtrees t) -> quiet u.
Proof.
  induction t as [lv nm d l r IHl IHr] using tree_induction. intros u Q I. rewrite subtrees_eq in I. destruct I as [<-|I]; [exact Q|].
  apply quiet_sub in Q. destruct Q as [Ql Qr]. apply in_app_or in I.
  destruct I as [I|I]; [destruct l|destruct r]; try contradiction; cbn [optP osubtrees ListIncProofs.oquiet] in *; auto.
Qed.
Lemma writes_keep L u s a cs cs' : quiet u -> apart (tnames u) L -> wupto L cs cs' -> chold cs (writes u s a) -> chold cs' (writes u s a).
Proof.
  intros Q D U. apply (chold_upto L); [exact U|]. intros x I. destruct (writes_at fn fn_at u Q s a x I) as (m & I1 & I2). exists m.
  split; [|exact I2]. apply cnt_In in I1. destruct (D m); lia.
Qed.
Lemma wfits_keep cs tb cs' tb' t L : quiet t -> wfits cs tb t -> wupto L cs cs' -> apart (tnames t) L ->
  (forall n, In n (tnames t) -> tb' (NForkL n) = tb (NForkL n) /\ tb' (NForkR n) = tb (NForkR n)) -> wfits cs' tb' t.
Proof.
  intros Qt F U D Eq lv n d l r I. destruct (sub_names _ _ _ _ _ _ I) as [In1 In2]. destruct (Eq n In1) as [EL ER].
  destruct (F _ _ _ _ _ I) as [FL FR]. rewrite EL, ER. apply (quiet_subtrees _ _ Qt) in I. apply quiet_sub in I. destruct I as [Ql Qr].
  assert (K : forall u s a, l = Some u \/ r = Some u -> chold cs (writes u s a) -> chold cs' (writes u s a)).
  { intros u s a Hu. apply (writes_keep L); [destruct Hu as [-> | ->]; auto| |exact U].
    intros z. destruct (D z) as [Z|Z]; [left|now right].
    apply cnt_zero in Z. apply cnt_zero; intros Hz; apply Z; eapply In2; eauto. }
  split; intros u s a x Hu Tx; eapply K; eauto.
Qed.
Lemma wfits_sub cs tb lv nm d l r : wfits cs tb (Node lv nm d l r) -> (forall u, l = Some u \/ r = Some u -> wfits cs tb u).
Proof.
  intros F u Hu lv' n' d' l' r' I. apply (F lv' n' d' l' r'). rewrite subtrees_eq. right. apply in_or_app.
  destruct Hu as [->| ->]; auto.
Qed.

Lemma wchild_sim k n o : optP (fun t => forall s a itb tb st cs y cs' tr itb' lg, quiet t -> held st (cin t) -> uniq (tnames t) -> wrel itb tb -> psound tb ->
    wfits cs tb t -> w_fold_lr_meta eqA eqC eqR k node (hin t) s a st cs itb = Ok (y, cs', tr, itb', lg) -> wpost t s a (fold t s a) tb cs y cs' tr itb' lg) o ->
  forall s a itb tb st cs y cs' tr itb' lg,
  (forall m, n = Some m -> forall u x, o = Some u -> tb m = Some (u, s, a, x) -> chold cs (writes u s a)) ->
  (forall u, o = Some u -> wfits cs tb u) -> oquiet o ->
  held st (ocells q o) -> uniq (otnames o) -> wrel itb tb -> psound tb ->
  match ohandle q o with
  | None => w_ret a
  | Some t1 => w_memo_opt eqA eqC (slr_same eqA eqR) n (t1, s, a) (w_fold_lr_meta eqA eqC eqR k node t1 s a)
  end st cs itb = Ok (y, cs', tr, itb', lg) ->
  exists tb' plg,
    match o with
    | None => Ok (a, tb, [])
    | Some t1 => memo_opt (lr_same eqA eqR) n (t1, s, a) (fold t1 s a) tb
    end = Ok (y, tb', plg) /\ y = opure o s a /\ lg = map hin plg /\ wrel itb' tb' /\ psound tb' /\
    (forall m, tb' m = tb m \/ Some m = n \/ exists p, In p (otnames o) /\ (m = NForkL p \/ m = NForkR p)) /\
    chold cs' (owrites o s a) /\ (forall st2 cs2, wheld st2 cs2 tr <-> held st2 (ocells q o) /\ chold cs2 (owrites o s a)) /\
    wupto (otnames o) cs cs' /\ wtouched cs cs' lg.
Proof.
  intros IH s a itb tb st cs y cs' tr itb' lg Fit Fs Qu Hc Un Rel Sd H.
  destruct o as [t|]; cbn [ohandle ocells otnames optP ListIncProofs.oquiet ListIncProofs.opure ListIncProofs.owrites] in *.
  - apply (wcall_sim n t s a (fold t s a) (w_fold_lr_meta eqA eqC eqR k node (hin t) s a) itb tb st cs y cs' tr itb' lg); auto.
    + intros m Em x Tx. eapply Fit; eauto.
    + intros y0 cs0 tr0 itb0 lg0 Q. eapply IH; eauto.
  - inv H. exists tb, []. repeat (split; [reflexivity || assumption|]). split; [auto|]. split; [intros x []|].
    split; [intros st2 cs2; split; [intros _; split; [apply held_nil|intros x []]|intros _; apply wheld_nil]|]. split; [apply wupto_refl|apply wtouched_refl].
Qed.

Lemma wfold_sim k : forall t s a itb tb st cs y cs' tr itb' lg, quiet t -> held st (cin t) -> uniq (tnames t) -> wrel itb tb -> psound tb ->
  wfits cs tb t -> w_fold_lr_meta eqA eqC eqR k node (hin t) s a st cs itb = Ok (y, cs', tr, itb', lg) -> wpost t s a (fold t s a) tb cs y cs' tr itb' lg.
Proof.
  induction k as [|k IH]; intros t s a itb tb st cs y cs' tr itb' lg Qu Hc Un Rel Sd Fit H; [discriminate|]. cbn [w_fold_lr_meta] in H.
  pose proof (handle_look eqA q st t Hc) as Lk.
  rewrite (w_bind_eq (w_enter (hin t)) _ st cs itb tt cs [] itb [hin t]) in H by reflexivity.
  apply bind_Ok in H. destruct H as ([[[[y1 cs1] tr1] itb1] lg1] & H & Z). inv Z.
  assert (Fo : exists tr0, w_force (hin t) st cs itb = Ok (t_peek t, ohandle q (t_left t), ohandle q (t_right t), cs, tr0, itb, []) /\
    forall st2 cs2, wheld st2 cs2 tr0 <-> held st2 match hin t with TPut _ _ _ _ => [] | TCell _ c => [(c, (t_peek t, ohandle q (t_left t), ohandle q (t_right t)))] end).
  { unfold w_force. rewrite Lk. cbn [unwrap bind]. eexists. split; [reflexivity|]. intros st2 cs2.
    destruct (hin t) as [lv d l r|lv c]; [split; intros; [apply held_nil|apply wheld_nil]|].
    rewrite wheld_node. unfold IncProofs.held. cbn [forallb]. rewrite andb_true_r. rewrite holds_eq. reflexivity. }
  destruct Fo as (tr0 & Fo & Ko). rewrite (w_bind_eq _ _ _ _ _ _ _ _ _ _ Fo) in H. apply bind_Ok in H.
  destruct H as ([[[[y2 cs2] tr2] itb2] lg2] & H & Z). inv Z.
  rewrite handle_name, handle_level in H. destruct t as [lv nm d l r]. cbn [t_level t_name t_peek t_left t_right] in *.
  pose proof (quiet_sub _ _ _ _ _ Qu) as [Ql Qr].
  pose proof Hc as Hc'. rewrite cells_eq, !held_app in Hc'. destruct Hc' as (_ & Hl & Hr).
  pose proof Un as Un'. rewrite tnames_eq in Un'. cbn [t_name t_left t_right] in Un'.
  pose proof (wfits_sub _ _ _ _ _ _ _ Fit) as Fs.
  assert (Cells : forall st2, held st2 (cin (Node lv nm d l r)) <->
    held st2 match hin (Node lv nm d l r) with TPut _ _ _ _ => [] | TCell _ c => [(c, (d, ohandle q l, ohandle q r))] end /\ held st2 (ocells q l) /\ held st2 (ocells q r)).
  { intros st2. rewrite cells_eq, !held_app. now destruct nm. }
  assert (Z : (l = None /\ r = None) \/ (l <> None \/ r <> None)) by (destruct l, r; intuition congruence).
  destruct Z as [[-> ->]|Z].
  { cbn [ohandle] in H. rewrite node_eq in H. inv H. cbn [ListIncProofs.quiet] in Qu. destruct Qu as [Q _].
    assert (W : snd (fn a d lv s) = []) by apply Q. constructor.
    - exists tb, [Node lv nm d None None]. split; [reflexivity|]. split; [reflexivity|]. split; [reflexivity|]. split; [exact Rel|]. split; [exact Sd|].
      split; [intros n; now left|]. cbn [ListIncProofs.writes]. rewrite W. split; [intros x []|]. intros st2 c2. cbn [map app]. rewrite app_nil_r, Ko, Cells.
      cbn [ocells]. pose proof (held_nil eqA st2). assert (chold c2 []) by (intros x []). cbn [ohandle]. tauto.
    - rewrite W. apply wupto_refl.
    - rewrite W. apply wtouched_refl. }
  assert (H' : (wop a1 <- match ohandle q l with
             | None => w_ret a
             | Some t1 => w_memo_opt eqA eqC (slr_same eqA eqR) (fork_left nm) (t1, s, a) (w_fold_lr_meta eqA eqC eqR k node t1 s a)
             end;
   wop a2 <- node a1 d lv nm;
   match ohandle q r with
   | None => w_ret a2
   | Some t2 => w_memo_opt eqA eqC (slr_same eqA eqR) (fork_right nm) (t2, nm, a2) (w_fold_lr_meta eqA eqC eqR k node t2 nm a2)
   end) st cs itb = Ok (y, cs', tr2, itb', lg1)) by (destruct l, r; auto; destruct Z; congruence).
  clear H. rename H' into H.
  apply w_bind_Ok in H. destruct H as (a1 & cs3 & tr3 & itb3 & lg3 & tr4 & lg4 & H1 & H & -> & ->).
  rewrite (w_bind_eq _ _ _ _ _ _ _ _ _ _ (node_eq a1 d lv nm st cs3 itb3)) in H. apply bind_Ok in H.
  destruct H as ([[[[y5 cs5] tr5] itb5] lg5] & H & Q). inv Q.
  assert (Root : forall n, nm = Some n ->
    (forall u s a x, l = Some u -> tb (NForkL n) = Some (u, s, a, x) -> chold cs (writes u s a)) /\
    (forall u s a x, r = Some u -> tb (NForkR n) = Some (u, s, a, x) -> chold cs (writes u s a))).
  { intros n ->. apply (Fit lv n d l r). rewrite subtrees_eq. now left. }
  destruct (wchild_sim k (fork_left nm) l) with (s := s) (a := a) (itb := itb) (tb := tb) (st := st) (cs := cs) (y := a1) (cs' := cs3) (tr := tr3) (itb' := itb3) (lg := lg3)
    as (tb1 & plg1 & A1 & A2 & A3 & A4 & A5 & A7 & A8 & A9 & A10 & A11); auto; try names.
  { destruct l as [tl|]; [|exact I]. intros s0 a0 itb0 tb0. apply IH. }
  { intros m Em u x Hu Tx. destruct nm as [n|]; [|discriminate]. injection Em as <-. exact (proj1 (Root n eq_refl) u s a x Hu Tx). }
  assert (Keep : forall m p, In p (tnames (Node lv nm d None r)) -> (m = NForkL p -> ~ nm = Some p) -> m = NForkL p \/ m = NForkR p -> tb1 m = tb m).
  { intros m n Ip Np Em. destruct (A7 m) as [W|[W|(p' & Ip' & W)]]; [exact W|exfalso..].
    - destruct nm as [n'|]; [|discriminate]. injection W as ->. destruct Em as [Em|Em]; [|discriminate].
      apply (Np Em). congruence.
    - assert (p' = n) by (destruct Em, W; congruence). subst p'.
      rewrite tnames_eq in Ip. cbn [t_name t_left t_right otnames app] in Ip. apply cnt_In in Ip, Ip'.
      rewrite ?cnt_app in Ip. specialize (Un' n). rewrite !cnt_app in Un'. lia. }
  set (W2 := snd (fn a1 d lv nm)) in *. set (cs4 := puts cs3 W2) in *.
  assert (U2 : wupto (oroot nm) cs3 cs4).
  { apply puts_upto. intros x I. destruct (fn_at _ _ _ _ _ I) as (m & -> & I2). exists m. split; [now left|exact I2]. }
  assert (U12 : wupto (otnames l ++ oroot nm) cs cs4) by (eapply wupto_trans; eauto).
  destruct (wchild_sim k (fork_right nm) r) with (s := nm) (a := plain a1 d lv nm) (itb := itb3) (tb := tb1) (st := st) (cs := cs4) (y := y) (cs' := cs') (tr := tr5) (itb' := itb') (lg := lg4)
    as (tb2 & plg2 & B1 & B2 & B3 & B4 & B5 & B7 & B8 & B9 & B10 & B11); auto; try names.
  { destruct r as [tl|]; [|exact I]. intros s0 a0 itb0 tb0. apply IH. }
  { intros m Em u x Hu Tx. destruct nm as [n|]; [|discriminate]. injection Em as <-.
    rewrite (Keep (NForkR n) n) in Tx; [|rewrite tnames_eq; now left|discriminate|now right].
    pose proof (proj2 (Root n eq_refl) u _ _ x Hu Tx) as W. revert W. subst r. cbn [otnames ListIncProofs.oquiet] in *.
    apply (writes_keep (otnames l ++ oroot (Some n))); [exact Qr| |exact U12]. names. }
  { intros u Hu. subst r. cbn [otnames ListIncProofs.oquiet] in *. apply (wfits_keep cs tb cs4 tb1 u (otnames l ++ oroot nm)); auto.
    - names.
    - intros n Hn. assert (Hn' : In n (tnames (Node lv nm d None (Some u)))).
      { rewrite tnames_eq. cbn [t_name t_left t_right otnames app]. apply in_or_app. now right. }
      split; apply (Keep _ n); auto; [|discriminate]. intros _ ->. cbn [oroot] in Un'. specialize (Un' n). apply cnt_In in Hn.
      rewrite !cnt_app in Un'. unfold cnt in Un' at 1. simpl in Un'. destruct (name_eq_dec n n); [lia|congruence]. }
  assert (T5 : wtouched cs3 cs4 [hin (Node lv nm d l r)]).
  { intros b. destruct (list_eq_dec name_eq_dec (fst b) path) as [Ep|Ep]; [|left; apply U2; now left].
    destruct nm as [n|]; [|left; apply U2; now right]. destruct (name_eq_dec (snd b) n) as [En|En].
    - right. split; [exact Ep|]. eexists. split; [now left|]. rewrite handle_name. cbn [t_name]. now rewrite En.
    - left. apply U2. right. apply cnt_zero. intros [X|[]]. congruence. }
  subst lg3 lg4 y a1.
  assert (Lg : forall h, h = hin (Node lv nm d l r) \/ In h (map hin plg1) \/ In h (map hin plg2) ->
     In h (hin (Node lv nm d l r) :: map hin plg1 ++ map hin plg2)).
  { intros h Hh. cbn [app]. destruct Hh as [->|[Hh|Hh]]; [now left|right..]; apply in_or_app; auto. }
  constructor.
  - exists tb2, (Node lv nm d l r :: plg1 ++ plg2).
    rewrite (pure_branch fn _ _ _ _ _ _ _ Z), (writes_branch fn _ _ _ _ _ _ _ Z).
    split; [|split; [reflexivity|split; [|split; [exact B4|split; [exact B5|split; [|split]]]]]].
    + cbn [m_fold_lr_meta]. rewrite A1. cbn [bind]. rewrite B1. destruct l, r; try reflexivity. destruct Z; congruence.
    + cbn [app map]. now rewrite map_app.
    + intros m. rewrite tnames_eq. cbn [t_name t_left t_right].
      assert (F : forall (b : bool) o', Some m = (if b then fork_left nm else fork_right nm) ->
        exists p, In p (oroot nm ++ o') /\ (m = NForkL p \/ m = NForkR p)).
      { intros b o' W. destruct nm as [n|]; [|destruct b; discriminate]. exists n. split; [now left|]. destruct b; injection W as ->; auto. }
      destruct (B7 m) as [W|[W|(n & Ip & W)]]; [|right; exact (F false _ W)|right].
      * destruct (A7 m) as [W'|[W'|(n & Ip & W')]]; [left; congruence|right; exact (F true _ W')|right].
        exists n. split; [|exact W']. apply in_or_app. right. apply in_or_app. now left.
      * exists n. split; [|exact W]. apply in_or_app. right. apply in_or_app. now right.
    + rewrite !chold_app. split; [|split; [|exact B8]].
      * assert (W : chold cs' (owrites l s a)).
        { destruct l as [tl|]; [|intros x []]. cbn [otnames ListIncProofs.oquiet ListIncProofs.owrites] in *.
          apply (writes_keep (oroot nm ++ otnames r) tl s a cs3); [exact Ql|names| |exact A8]. eapply wupto_trans; eauto. }
        exact W.
      * apply (chold_upto (otnames r) cs4); [exact B10| |apply fn_one]. intros x I. destruct (fn_at _ _ _ _ _ I) as (m & -> & I2). exists m.
        split; [|exact I2]. specialize (Un' m). rewrite !cnt_app in Un'.
        assert (cnt m (oroot (Some m)) = 1) by (cbn [oroot cnt count_occ]; destruct (name_eq_dec m m); congruence). lia.
    + intros st6 cs6. cbn [app]. rewrite !wheld_app, wheld_cells, !chold_app, Cells, Ko, A9, B9. tauto.
  - rewrite tnames_eq. cbn [t_name t_left t_right]. eapply wupto_sub; [|eapply wupto_trans; [exact U12|exact B10]]. names.
  - apply (wtouched_trans _ cs3); [apply (wtouched_sub _ _ (map hin plg1)); [intros; apply Lg; auto|exact A11]|].
    apply (wtouched_trans _ cs4); [|apply (wtouched_sub _ _ (map hin plg2)); [intros; apply Lg; auto|exact B11]].
    apply (wtouched_sub _ _ [hin (Node lv nm d l r)]); [|exact T5]. intros h [<-|[]]. apply Lg. now left.
Qed.

(** What an annotated subtree wrote is among what the whole wrote. *)
Lemma writes_sub t : forall s a u s' a', In (annot plain u s' a') (subtrees (annot plain t s a)) -> incl (writes u s' a') (writes t s a).
Proof.
  induction t as [lv nm d l r IHl IHr] using tree_induction. intros s a u s' a' I.
  change (annot plain (Node lv nm d l r) s a) with (Node lv nm (d, (s, a)) (option_map (fun t => annot plain t s a) l)
    (option_map (fun t => annot plain t nm (plain (opure l s a) d lv nm)) r)) in I.
  rewrite subtrees_eq in I. destruct I as [I|I].
  - change (annot plain (Node lv nm d l r) s a = annot plain u s' a') in I. apply annot_inj in I. injection I as <- <- <-. apply incl_refl.
  - assert (Z : l <> None \/ r <> None) by (destruct l, r; simpl in I; try contradiction; try (left; discriminate); right; discriminate).
    rewrite (writes_branch fn _ _ _ _ _ _ _ Z). apply in_app_or in I. destruct I as [I|I].
    + destruct l as [tl|]; [|contradiction]. cbn [option_map osubtrees optP ListIncProofs.owrites] in *. apply incl_appl. eauto.
    + destruct r as [tr|]; [|contradiction]. cbn [option_map osubtrees optP ListIncProofs.owrites] in *. apply incl_appr, incl_appr. eauto.
Qed.

Context (s0 : option name) (a0 : R).
Notation top t := (annot plain t s0 a0).
Lemma wnext_fits cs tb utb (us : list (tree A)) u : orderly (u :: us) -> rel plain tb utb -> state_ok (map (fun t => top t) us) utb ->
  match us with v :: _ => chold cs (writes v s0 a0) | [] => True end -> wfits cs tb u.
Proof.
  intros Od Rl [Us Cv] Old lv n d l r I.
  assert (In0 : In n (names u)) by (eapply subtrees_names; [exact I|]; rewrite names_eq; now left).
  assert (No : (forall w, In w us -> ~ In n (names w)) -> tb (NForkL n) = None /\ tb (NForkR n) = None).
  { intros H.
    assert (Z : forall b, tb (if b : bool then NForkL n else NForkR n) = None).
    { intros b. destruct (tb (if b then NForkL n else NForkR n)) as [e|] eqn:Q; [|reflexivity].
      pose proof (Rl (if b then NForkL n else NForkR n)) as Qr. rewrite Q in Qr. cbn [option_map] in Qr.
      destruct (Us _ _ Qr) as (w & m' & I1 & I2 & I3). apply in_map_iff in I1. destruct I1 as (w' & <- & I1). rewrite annot_names in I2. elim (H w' I1).
      destruct b, I3 as [I3|I3]; try discriminate; injection I3 as <-; exact I2. }
    split; [apply (Z true)|apply (Z false)]. }
  destruct us as [|v older].
  - destruct No as [-> ->]; [intros w []|]. split; discriminate.
  - simpl in Od. destruct Od as (Oh & _ & _ & Od). destruct (Od n In0) as [H|H].
    2: { destruct (No H) as [-> ->]. split; discriminate. }
    destruct Oh as (_ & Ip & Np & _). cbn [map] in Cv.
    assert (Ed : exists pl pr, edge (top v) n pl pr).
    { apply name_edge; [now apply annot_inner|now rewrite annot_names]. }
    destruct Ed as (pl & pr & Ed). destruct (Cv n pl pr Ed) as [[xl EL] [xr ER]]. destruct Ed as (lv' & d' & Ed).
    assert (Is : In pl (subtrees (top v)) /\ In pr (subtrees (top v))).
    { split; (eapply subtrees_trans; [exact Ed|]; rewrite subtrees_eq; right; apply in_or_app);
        [left|right]; apply subtrees_self. }
    split; intros w s a x Hw Tx.
    + pose proof (Rl (NForkL n)) as Q. rewrite Tx, EL in Q. cbn [option_map] in Q. injection Q as -> _.
      eapply chold_incl; [exact (writes_sub _ _ _ _ _ _ (proj1 Is))|exact Old].
    + pose proof (Rl (NForkR n)) as Q. rewrite Tx, ER in Q. cbn [option_map] in Q. injection Q as -> _.
      eapply chold_incl; [exact (writes_sub _ _ _ _ _ _ (proj2 Is))|exact Old].
Qed.
End Fold.

(** ** Histories *)
Section Runs.
Context {E M C R : Type} {RM : RazMeta E M} (eqD : forall x y : tree_data E M, {x = y} + {x <> y})
  (eqC : forall x y : C, {x = y} + {x <> y}) (eqR : forall x y : R, {x = y} + {x <> y}) (q : list name) {Nsp : here}.
Notation rdata := (tree_data E M).
Notation wm := (wm (level * list E) rdata C (stree rdata * option name * R) R).
Context (push : R -> E -> R) (archive : R -> level * option name -> wm R) (arc : R -> level * option name -> R * list (loc * C)) (init : R).
Hypothesis archive_eq : forall a m st cs tb,
  archive a m st cs tb = Ok (fst (arc a m), puts cs (snd (arc a m)), map cellseen (snd (arc a m)), tb, []).
Hypothesis arc_at : forall a lv n x, In x (snd (arc a (lv, n))) -> exists m, n = Some m /\ fst x = (path, m).
Hypothesis arc_one : forall a m cs, chold (puts cs (snd (arc a m))) (snd (arc a m)).
Notation fn := (lfn push arc).
Notation plain := (plain fn).
Notation run := (w_rt_fold_lr_meta eqD eqC eqR push archive init).
Notation wevent := (wevent (level * list E) rdata C (sraz_tree E M) R).
Notation s0 := (Some (NStr "start")).
Notation writes u := (writes fn u s0 init).
Notation top u := (annot plain u s0 init).
Notation body := (m_rt_lr eqD eqR plain init).
Notation psound := (sound (lr_pure plain)).
Notation wrel := (wrel (T := level * list E) eqD eqC q fn).
Notation wfits := (wfits fn).
Notation tab := (mtab (tree rdata * option name * R) R).
Notation utab := (mtab (tree (rdata * (option name * R))) R).
Notation itab := (wtab rdata C (stree rdata * option name * R) R).
Implicit Types (tb : tab) (utb : utab) (itb : itab).

Definition owfits cs tb (o : option (tree rdata)) : Prop := match o with None => True | Some t => wfits cs tb t end.
Lemma wrt_sim k (t : raz_tree E M) h itb tb st cs y cs' tr itb' lg : tree_reads (within q st) h t -> uniq (otnames (rt_tree t)) -> oquiet fn (rt_tree t) ->
  wrel itb tb -> psound tb -> owfits cs tb (rt_tree t) -> run k h st cs itb = Ok (y, cs', tr, itb', lg) ->
  exists tb' plg, body t tb = Ok (y, tb', plg) /\ lg = map (handle q) plg /\ wrel itb' tb' /\ psound tb' /\
    match rt_tree t with None => cs' = cs /\ tb' = tb | Some u => chold cs' (writes u) end /\ wtouched cs cs' lg.
Proof.
  intros [_ Rd] Un Qu Rel Sd Fit H. unfold w_rt_fold_lr_meta in H. unfold m_rt_lr.
  destruct (srt_tree h) as [s|], (rt_tree t) as [u|]; try contradiction; cbn [otnames owfits oquiet] in *.
  - apply reads_rep, (homed eqD) in Rd. destruct Rd as [-> Hc].
    destruct (wfold_sim eqD eqC eqR q fn (w_node push archive) (lfn_eq push archive arc archive_eq) (lfn_at push arc arc_at) (lfn_one push arc arc_one)
      k u s0 init itb tb st cs y cs' tr itb' lg Qu Hc Un Rel Sd Fit H)
      as [(tb' & plg & E1 & E2 & E3 & E4 & E5 & E6 & E7 & E8) _ Tc]. exists tb', plg. auto 10.
  - inv H. exists tb, []. split; [reflexivity|]. split; [reflexivity|]. split; [exact Rel|]. split; [exact Sd|].
    split; [auto|]. intros b. now left.
Qed.

(** What the latest run wrote is still there. *)
Definition wstays (hist : list wevent) (us : list (tree rdata)) : Prop :=
  match hist, us with
  | e :: _, u :: _ => chold (w_after e) (writes u)
  | _, _ => True
  end.
Definition wgood (hist : list wevent) (ts : list (raz_tree E M)) : Prop :=
  w_undisturbed path hist /\
  Forall2 (fun (e : wevent) (t : raz_tree E M) => tree_reads (within q (w_trees e)) (w_given e) t) hist ts /\
  Forall (fun t : raz_tree E M => otree_ok (rt_tree t)) ts /\ orderly_points (map contents ts).
Lemma wgood_tail e hist (t : raz_tree E M) ts : wgood (e :: hist) (t :: ts) -> wgood hist ts.
Proof.
  intros (U & F & O & P). split; [cbn [w_undisturbed] in U; tauto|]. split; [now inv F|]. split; [now inv O|].
  cbn [map orderly_points] in P. tauto.
Qed.
Lemma quiet_trees (ts : list (raz_tree E M)) : Forall (fun t : raz_tree E M => otree_ok (rt_tree t)) ts -> Forall (quiet fn) (trees ts).
Proof.
  induction 1 as [|t ts H _ IH]; [constructor|]. unfold trees. cbn [flat_map]. apply Forall_app. split; [|exact IH].
  destruct (rt_tree t) as [u|]; constructor; [|constructor]. now apply ok_quiet.
Qed.

Lemma wone_step k (e : wevent) hist ts (t : raz_tree E M) itb tb utb tr itb' : wgood (e :: hist) (t :: ts) ->
  wrel itb tb -> psound tb -> rel plain tb utb -> state_ok (map (fun u => top u) (trees ts)) utb -> wstays hist (trees ts) -> (hist = [] -> trees ts = []) ->
  run k (w_given e) (w_trees e) (w_before e) itb = Ok (w_result e, w_after e, tr, itb', w_entered e) ->
  exists tb' utb' plg, body t tb = Ok (w_result e, tb', plg) /\ w_entered e = map (handle q) plg /\
    wrel itb' tb' /\ psound tb' /\ rel plain tb' utb' /\ state_ok (map (fun u => top u) (trees (t :: ts))) utb' /\ wstays (e :: hist) (trees (t :: ts)) /\
    wtouched (w_before e) (w_after e) (w_entered e).
Proof.
  intros (U & F & O & P) Rel Sd Rl So St Em H.
  pose proof (orderly_trees _ O P) as Od. pose proof (quiet_trees _ O) as Qu. inv F. inv O.
  assert (Bf : match trees ts with v :: _ => chold (w_before e) (writes v) | [] => True end).
  { destruct (trees ts) as [|v older] eqn:Et; [exact I|]. destruct hist as [|e' past]; [specialize (Em eq_refl); discriminate|].
    cbn [wstays] in St. cbn [w_undisturbed] in U. destruct U as [_ U].
    assert (Qv : quiet fn v).
    { rewrite Forall_forall in Qu. apply Qu. unfold trees. cbn [flat_map]. fold (trees ts). rewrite Et. apply in_or_app. right. now left. }
    intros [b c] Ix. destruct (writes_at fn (lfn_at push arc arc_at) v Qv _ _ _ Ix) as (m & _ & Em'). cbn [fst snd] in *. subst b.
    rewrite U. exact (St _ Ix). }
  assert (Un : uniq (otnames (rt_tree t)) /\ oquiet fn (rt_tree t) /\ owfits (w_before e) tb (rt_tree t)).
  { unfold trees in Od, Qu. cbn [flat_map] in Od, Qu. fold (trees ts) in Od, Qu.
    destruct (rt_tree t) as [u|]; [|split; [apply uniq_NoDup; constructor|split; exact I]].
    cbn [app] in Od, Qu. inversion Qu. split; [|split; [assumption|eapply wnext_fits; eauto]]. apply (tree_uniq (E := E) (M := M)).
    exact (proj1 (proj2 (orderly_head _ _ Od))). }
  destruct Un as (Un & Qt & Fit).
  destruct (wrt_sim k t (w_given e) itb tb (w_trees e) (w_before e) _ _ _ _ _ H3 Un Qt Rel Sd Fit H) as (tb' & plg & E2 & E3 & E4 & E5 & E6 & E7).
  unfold trees. cbn [flat_map]. fold (trees ts). unfold trees in Od. cbn [flat_map] in Od. fold (trees ts) in Od.
  unfold m_rt_lr in *. destruct (rt_tree t) as [u|]; cbn [app map] in *.
  - destruct (MemoLR.lr_sim eqD eqR plain _ _ _ _ _ _ _ _ Sd Rl E2) as (utb' & lg' & F' & Rl' & _). exists tb', utb', plg.
    split; [exact E2|]. split; [exact E3|]. split; [exact E4|]. split; [exact E5|]. split; [exact Rl'|].
    split; [|split; [exact E6|exact E7]].
    exact (proj1 (state_step (eqN eqD eqR) (MemoLR.up plain) (top u) (map (fun u => top u) (trees ts)) utb _ _ _ (orderly_annot plain s0 init (u :: trees ts) Od) So F')).
  - destruct E6 as [Es ->]. exists tb, utb, plg. split; [exact E2|]. split; [exact E3|]. split; [exact E4|]. split; [exact E5|]. split; [exact Rl|].
    split; [exact So|]. split; [|exact E7]. unfold wstays. rewrite Es. exact Bf.
Qed.

Lemma whistory hist itb : w_ran run hist itb -> forall ts : list (raz_tree E M), wgood hist ts ->
  exists rs tb utb lgs, runs body (rev ts) no_memos = Ok (rs, tb, lgs) /\ wrel itb tb /\ psound tb /\ rel plain tb utb /\
    state_ok (map (fun u => top u) (trees ts)) utb /\ wstays hist (trees ts) /\ (hist = [] -> trees ts = []).
Proof.
  induction 1 as [|hist itb k' st cs x y cs' tr itb' lg R0 IH H]; intros ts G.
  - assert (ts = []) as -> by (destruct G as (_ & F & _); now inv F).
    exists [], no_memos, no_memos, []. split; [reflexivity|]. split; [intros n; exact I|]. split; [intros n a b; discriminate|].
    split; [intros n; reflexivity|]. split; [apply no_memos_state|]. split; [exact I|reflexivity].
  - destruct ts as [|t ts]; [destruct G as (_ & F & _); inv F|].
    destruct (IH ts (wgood_tail _ _ _ _ G)) as (rs & tb & utb & lgs & Rs & Rel & Sd & Rl & So & St & Em).
    destruct (wone_step k' _ hist ts t itb tb utb tr itb' G Rel Sd Rl So St Em H) as (tb' & utb' & plg & E1 & E2 & E3 & E4 & E5 & E6 & E7 & E8).
    cbn [rev]. rewrite runs_app, Rs. cbn [bind runs]. rewrite E1. cbn [bind]. do 4 eexists. split; [reflexivity|].
    split; [exact E3|]. split; [exact E4|]. split; [exact E5|]. split; [exact E6|]. split; [exact E7|discriminate].
Qed.

Theorem list_again (t t' : raz_tree E M) older pre mid mid' post e hist itb :
  Forall (fun t : raz_tree E M => tree_reached false t) (t' :: t :: older) -> orderly_points (map contents (t' :: t :: older)) ->
  contents t = pre ++ mid ++ post -> contents t' = pre ++ mid' ++ post ->
  settled (M := M) plain (fun a lv nm => fst (arc a (lv, nm))) s0 init pre mid mid' post ->
  w_ran run (e :: hist) itb -> w_undisturbed path (e :: hist) ->
  Forall2 (fun (e : wevent) (t : raz_tree E M) => tree_reads (within q (w_trees e)) (w_given e) t) (e :: hist) (t' :: t :: older) ->
  length (w_entered e) <= 1 + 2 * (seen_from_right pre + length (marks mid') + seen_from_left 0%N post) /\
  wtouched (w_before e) (w_after e) (w_entered e).
Proof.
  intros Re Op C0 C' Se Rn U F.
  assert (G : wgood (e :: hist) (t' :: t :: older)).
  { split; [exact U|]. split; [exact F|]. split; [|exact Op]. exact (MemoHistory.reached_ok t t' older Re). }
  assert (R' : exists k tab tr, w_ran run hist tab /\ run k (w_given e) (w_trees e) (w_before e) tab = Ok (w_result e, w_after e, tr, itb, w_entered e)).
  { inversion Rn as [|h tab k st cs x y cs' tr tab' lg R0 H0 E0 E1]. subst. eauto 10. }
  destruct R' as (k & tab & tr & R0 & H0).
  destruct (whistory hist tab R0 _ (wgood_tail _ _ _ _ G)) as (rs & tb & utb & lgs & Rs & Rel & Sd & Rl & So & St & Em).
  destruct (wone_step k e hist _ t' tab tb utb tr itb G Rel Sd Rl So St Em H0) as (tb' & utb' & plg & E1 & E2 & E3 & E4 & E5 & E6 & E7 & E8).
  split; [|exact E8]. rewrite E2, map_length.
  exact (settled_cost eqD eqR t t' older pre mid mid' post plain (fun a lv nm => fst (arc a (lv, nm))) init rs tb lgs _ tb' plg Re Op C0 C'
    (fun a p q lv nm => eq_refl) Se Rs E1).
Qed.
End Runs.

Section Uses.
Context {E M : Type} {RM : RazMeta E M} (eqD : forall x y : tree_data E M, {x = y} + {x <> y})
  (eqE : forall x y : E, {x = y} + {x <> y}) (q : list name) {Nsp : here}.
Context (t t' : raz_tree E M) (older : list (raz_tree E M)) (pre mid mid' post : list (atom E level)).
Hypothesis reached : Forall (fun t : raz_tree E M => tree_reached false t) (t' :: t :: older).
Hypothesis disciplined : orderly_points (map contents (t' :: t :: older)).
Hypothesis was : contents t = pre ++ mid ++ post.
Hypothesis is : contents t' = pre ++ mid' ++ post.

Definition list_rerun {C R : Type} (run : nat -> sraz_tree E M -> wm (level * list E) (tree_data E M) C (stree (tree_data E M) * option name * R) R R) : Prop :=
  forall e hist tab, w_ran run (e :: hist) tab -> w_undisturbed path (e :: hist) ->
  Forall2 (fun e t => tree_reads (within q (w_trees e)) (w_given e) t) (e :: hist) (t' :: t :: older) ->
  length (w_entered e) <= 1 + 2 * (seen_from_right pre + length (marks mid') + seen_from_left 0%N post) /\
  forall b, w_after e b = w_before e b \/ fst b = path /\ exists h, In h (w_entered e) /\ st_name h = Some (snd b).

Theorem again_to_list : list_rerun (to_list_inc eqD eqE).
Proof.
  intros e hist tab. apply (list_again eqD _ _ q _ _ list_arc SLNil) with (mid := mid); auto.
  - intros a [lv [n|]] st cs tb; reflexivity.
  - intros a lv [n|] x; [|intros []]. intros [<-|[]]. eauto.
  - intros a [lv [n|]] cs; [apply one_hold|intros x []].
  - apply (reset_settled t t' older); auto.
Qed.
Theorem again_to_vlist : list_rerun (to_vlist_inc eqD eqE).
Proof.
  intros e hist tab. apply (list_again eqD _ _ q _ _ vlist_arc SVNil) with (mid := mid); auto.
  - intros a [lv [n|]] st cs tb; reflexivity.
  - intros a lv [n|] x; [|intros []]. intros [<-|[]]. eauto.
  - intros a [lv [n|]] cs; [apply one_hold|intros x []].
  - apply (reset_settled t t' older); auto.
Qed.
Context {S : Type} (eqS : forall x y : S, {x = y} + {x <> y}) (meta : level -> S).
Lemma sa_pushes (v : list E) : forall a : sastack E S, v <> [] -> sa_current (fold_left sa_push v a) <> [].
Proof.
  induction v as [|x v IH]; intros a H; [congruence|]. destruct v as [|y v].
  - cbn [fold_left sa_push sa_current]. destruct (sa_current a); discriminate.
  - apply IH. discriminate.
Qed.
Theorem again_to_stack : list_rerun (to_stack_inc eqD eqE eqS meta).
Proof.
  intros e hist tab. apply (list_again eqD _ _ q _ _ (stack_arc meta) sa_new) with (mid := mid); auto.
  - intros a [lv [n|]] st cs tb; unfold was_archive, stack_arc; destruct (sa_current a); reflexivity.
  - intros a lv n x. unfold stack_arc. cbn [fst snd]. destruct (sa_current a); [intros []|]. destruct n as [n|]; [|intros []]. intros [<-|[]]. eauto.
  - intros a [lv [n|]] cs; unfold stack_arc; destruct (sa_current a); try apply one_hold; intros x [].
  - apply (reset_settled t t' older); auto. intros a a' v v' s s' m n Hv Hv'. apply (sa_pushes v a) in Hv. apply (sa_pushes v' a') in Hv'. unfold plain, lfn, stack_arc. cbn [fst snd].
    destruct (sa_current (fold_left sa_push v a)); [congruence|]. now destruct (sa_current (fold_left sa_push v' a')).
Qed.
End Uses.
