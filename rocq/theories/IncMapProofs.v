(** * The memoised [map] over the store answers as the pure one. *)

From Verif Require Import Base BaseFacts Spec LevelTreeModel TreeSpec TreeProofs TreeCursorModel RazMetaModel RazModel MemoModel MemoSpec MemoProofs
  MemoHistory StoreModel StoreSpec StoreScripts StoreProofs StoreRaz StoreHistory StoreNs StoreMapModel StoreMapProofs
  IncModel IncSpec IncProofs IncMapModel IncMapSpec.

Lemma u_bind_Ok {T A K R X Y} (m : um T A K R X) (f : X -> um T A K R Y) st tab y st2 s tab2 lg :
  u_bind m f st tab = Ok (y, st2, s, tab2, lg) ->
  exists x st1 s1 tab1 lg1 s2 lg2, m st tab = Ok (x, st1, s1, tab1, lg1) /\ f x st1 tab1 = Ok (y, st2, s2, tab2, lg2) /\
    s = s1 ++ s2 /\ lg = lg1 ++ lg2.
Proof.
  unfold u_bind. intros H. apply bind_Ok in H. destruct H as ([[[[x st1] s1] tab1] lg1] & H1 & H).
  apply bind_Ok in H. destruct H as ([[[[y' st2'] s2] tab2'] lg2] & H2 & H). inv H. eauto 12.
Qed.
Lemma u_bind_eq {T A K R X Y} (m : um T A K R X) (f : X -> um T A K R Y) st tab x st1 s1 tab1 lg1 :
  m st tab = Ok (x, st1, s1, tab1, lg1) ->
  u_bind m f st tab = do ' (y, st2, s2, tab2, lg2) <- f x st1 tab1; Ok (y, st2, s1 ++ s2, tab2, lg1 ++ lg2).
Proof. intros H. unfold u_bind. now rewrite H. Qed.

Section Tree.
Context {T A : Type} {TU : TreeUpdate A} (eqA : forall x y : A, {x = y} + {x <> y}) {Nsp : here}.
Implicit Types (st : store T A) (s : stree A) (t : tree A).
Notation held := (held eqA).

Lemma u_force_Ok {K R} s st tab x st' tr (tab' : itab A K R) lg : u_force s st tab = Ok (x, st', tr, tab', lg) ->
  tree_look st s = Some x /\ st' = st /\ tab' = tab /\ lg = [] /\ forall st2, held st2 tr -> tree_look st2 s = Some x.
Proof.
  unfold u_force. intros H. destruct (tree_look st s) as [y|] eqn:L; [|discriminate]. cbn [unwrap bind] in H. inv H.
  repeat split; auto. intros st2 P. destruct s as [|lv a]; [exact L|].
  unfold IncProofs.held in P. cbn [forallb] in P. rewrite andb_true_r in P. now apply holds_eq in P.
Qed.
Lemma u_force_look {K R} s st (tab : itab A K R) x : tree_look st s = Some x ->
  exists tr, u_force s st tab = Ok (x, st, tr, tab, []).
Proof. intros H. unfold u_force. rewrite H. cbn [unwrap bind]. eauto. Qed.

Section Map.
Variable f : A -> level -> option name -> option (tree A) -> option (tree A) -> res A.
Variable sf : A -> level -> option name -> option (stree A) -> option (stree A) -> um T A (stree A) (stree A) A.
Hypothesis agree : forall st tab d lv nm sl sr l r, orep st sl l -> orep st sr r ->
  exists tr, sf d lv nm sl sr st tab = do d' <- f d lv nm l r; Ok (d', st, tr, tab, []).
Hypothesis replay : forall st tab d lv nm sl sr d' st1 tr tab1 lg, sf d lv nm sl sr st tab = Ok (d', st1, tr, tab1, lg) ->
  st1 = st /\ tab1 = tab /\ lg = [] /\
  forall st2 l r d2, held st2 tr -> orep st2 sl l -> orep st2 sr r -> f d lv nm l r = Ok d2 -> d2 = d'.

Definition map_good s st (r : stree A) : Prop := forall t t', rep st s t -> t_map f t = Ok t' -> rep st r t'.
Definition usound (tab : itab A (stree A) (stree A)) : Prop :=
  forall a e, tab a = Some e -> forall st, held st (e_seen e) -> map_good (e_arg e) st (e_res e).

Lemma usound_none : usound no_entries.
Proof. discriminate. Qed.

Lemma memo_sound n s body :
  (forall st tab s' st' tr tab' lg, usound tab -> body st tab = Ok (s', st', tr, tab', lg) ->
    usound tab' /\ forall st2, held st2 tr -> map_good s st2 s') ->
  forall st tab s' st' tr tab' lg, usound tab -> u_memo_opt eqA n s body st tab = Ok (s', st', tr, tab', lg) ->
    usound tab' /\ forall st2, held st2 tr -> map_good s st2 s'.
Proof.
  intros B st tab s' st' tr tab' lg Sd H. destruct n as [n|]; [|eauto]. cbn [u_memo_opt] in H. unfold u_memo in H.
  assert (Rr : (do ' (r, st', s0, tab', lg) <- body st tab; Ok (r, st', s0, i_set tab' (path, n) (Entry s s0 r), lg)) = Ok (s', st', tr, tab', lg) ->
     usound tab' /\ forall st2, held st2 tr -> map_good s st2 s').
  { intros Q. apply bind_Ok in Q. destruct Q as ([[[[r st1] tr1] tab1] lg1] & Q & Z). inv Z.
    destruct (B _ _ _ _ _ _ _ Sd Q) as [S1 G]. split; [|exact G]. intros a e. unfold i_set.
    destruct (loc_eq_dec a (path, n)) as [->|Ne]; [|apply S1]. intros [= <-]. exact G. }
  destruct (tab (path, n)) as [e|] eqn:Te; [|exact (Rr H)].
  destruct (stree_same eqA s (e_arg e) && forallb (holds eqA st) (e_seen e)) eqn:Sm; [|exact (Rr H)].
  apply andb_true_iff in Sm. destruct Sm as (Sk & _). apply stree_same_eq in Sk. subst s. inv H.
  split; [exact Sd|]. exact (Sd _ _ Te).
Qed.

Lemma map_sound k : forall s st tab s' st' tr tab' lg, usound tab ->
  u_map eqA sf k s st tab = Ok (s', st', tr, tab', lg) -> usound tab' /\ forall st2, held st2 tr -> map_good s st2 s'.
Proof.
  induction k as [|k IH]; intros s st tab s' st' tr tab' lg Sd H; [discriminate|]. cbn [u_map] in H.
  apply u_bind_Ok in H. destruct H as ([] & st0 & tr0 & tab0 & lg0 & tr1 & lg1 & H0 & H & -> & ->). inv H0.
  apply u_bind_Ok in H. destruct H as ([[d sl] sr] & st1 & tr1' & tab1 & lg1' & tr2 & lg2 & H1 & H & -> & ->).
  apply u_force_Ok in H1. destruct H1 as (Lk & -> & -> & -> & P1).
  apply u_bind_Ok in H. destruct H as (sl' & st2 & tr2' & tab2 & lg2' & tr3 & lg3 & H2 & H & -> & ->).
  apply u_bind_Ok in H. destruct H as (sr' & st3 & tr3' & tab3 & lg3' & tr4 & lg4 & H3 & H & -> & ->).
  apply u_bind_Ok in H. destruct H as (d' & st4 & tr4' & tab4 & lg4' & tr5 & lg5 & H4 & H & -> & ->).
  apply u_bind_Ok in H. destruct H as (o & st5 & tr5' & tab5 & lg5' & tr6 & lg6 & H5 & H & -> & ->).
  assert (Child : forall n so so' st tab st' tr tab' lg, usound tab ->
    match so with None => u_ret None | Some t1 => upd x <- u_memo_opt eqA n t1 (u_map eqA sf k t1); u_ret (Some x) end st tab
      = Ok (so', st', tr, tab', lg) ->
    usound tab' /\ forall st2 o o', held st2 tr -> orep st2 so o ->
      match o with None => Ok None | Some x => do y <- t_map f x; Ok (Some y) end = Ok o' -> orep st2 so' o').
  { clear - IH. intros n [s1|] so' st tab st' tr tab' lg Sd H.
    - apply u_bind_Ok in H. destruct H as (x & st1 & tr1 & tab1 & lg1 & tr2 & lg2 & H & Z & -> & ->). inv Z.
      destruct (memo_sound n s1 _ (fun st tab s' st' tr tab' lg => IH s1 st tab s' st' tr tab' lg) _ _ _ _ _ _ _ Sd H) as [Sd1 G].
      split; [exact Sd1|]. intros st2 o o' P Ro E. destruct o as [t1|]; [|contradiction]. apply bind_Ok in E.
      destruct E as (t1' & E & Z). inv Z. rewrite app_nil_r in P. exact (G st2 P t1 t1' Ro E).
    - inv H. split; [exact Sd|]. intros st2 o o' _ Ro E. destruct o; [contradiction|]. inv E. exact I. }
  destruct (Child _ _ _ _ _ _ _ _ _ Sd H2) as [Sd2 G2]. destruct (Child _ _ _ _ _ _ _ _ _ Sd2 H3) as [Sd3 G3].
  destruct (replay _ _ _ _ _ _ _ _ _ _ _ _ H4) as (-> & -> & -> & P4).
  assert (Sd' : tab5 = tab3) by (unfold u_tree_new in H5; destruct (st_name s); now inv H5).
  unfold u_lift in H. destruct o as [s5|]; [|discriminate]. cbn [unwrap bind] in H. inv H. split; [exact Sd3|].
  intros st2' P t t' Rp Mp. cbn [app] in P. rewrite !held_app in P. destruct P as (Q1 & Q2 & Q3 & Q4 & Q5 & _).
  apply rep_eq in Rp. destruct Rp as (E1 & E2 & a & b & Lk2 & Rl & Rr). rewrite (P1 _ Q1) in Lk2. injection Lk2 as -> -> ->.
  destruct t as [lv nm d l r]. cbn [t_level t_name t_peek t_left t_right] in *. cbn [t_map] in Mp.
  apply bind_Ok in Mp. destruct Mp as (l' & Ml & Mp). apply bind_Ok in Mp. destruct Mp as (r' & Mr & Mp).
  apply bind_Ok in Mp. destruct Mp as (d2 & Md & Mp). apply new_Ok in Mp. subst t'.
  pose proof (G2 _ _ _ Q2 Rl Ml) as Rl'. pose proof (G3 _ _ _ Q3 Rr Mr) as Rr'. subst lv nm.
  pose proof (P4 _ _ _ _ Q4 Rl' Rr' Md) as ->.
  apply rep_eq. cbn [t_level t_name t_peek t_left t_right]. unfold u_tree_new in H5.
  destruct (st_name s) as [n|]; inv H5; cbn [st_level st_name snd]; (split; [reflexivity|]); (split; [reflexivity|]);
    exists sl', sr'; (split; [|auto]); [|reflexivity].
  unfold IncProofs.held in Q5. cbn [forallb] in Q5. rewrite andb_true_r in Q5. now apply holds_eq in Q5.
Qed.

Lemma memo_total n s t t' body tab st : usound tab -> rep st s t -> t_map f t = Ok t' -> tnames t' = tnames t ->
  (exists s' st' tr tab' lg, body st tab = Ok (s', st', tr, tab', lg) /\ rep st' s' t' /\ upto (tnames t) st st') ->
  exists s' st' tr tab' lg, u_memo_opt eqA n s body st tab = Ok (s', st', tr, tab', lg) /\ rep st' s' t' /\
    upto (tnames t) st st'.
Proof.
  intros Sd Rp Mp Nm (s' & st' & tr & tab' & lg & B & R' & U). destruct n as [n|]; [|eauto 10]. cbn [u_memo_opt]. unfold u_memo.
  assert (Rr : exists s' st' tr tab' lg,
    (do ' (r, st', s0, tab', lg) <- body st tab; Ok (r, st', s0, i_set tab' (path, n) (Entry s s0 r), lg)) = Ok (s', st', tr, tab', lg) /\
      rep st' s' t' /\ upto (tnames t) st st').
  { rewrite B. cbn [bind]. eauto 10. }
  destruct (tab (path, n)) as [e|] eqn:Te; [|exact Rr].
  destruct (stree_same eqA s (e_arg e) && forallb (holds eqA st) (e_seen e)) eqn:Sm; [|exact Rr].
  apply andb_true_iff in Sm. destruct Sm as (Sk & P). apply stree_same_eq in Sk. subst s.
  do 5 eexists. split; [reflexivity|]. split; [exact (Sd _ _ Te _ P _ _ Rp Mp)|apply upto_refl].
Qed.

Lemma t_map_names t : forall t', t_map f t = Ok t' -> tnames t' = tnames t.
Proof.
  induction t as [lv nm d l r IHl IHr] using tree_induction. intros t' H. cbn [t_map] in H.
  apply bind_Ok in H. destruct H as (l' & Hl & H). apply bind_Ok in H. destruct H as (r' & Hr & H).
  apply bind_Ok in H. destruct H as (d' & Hd & H). apply new_Ok in H. subst t'. rewrite !tnames_eq. cbn [t_name t_left t_right].
  assert (X : forall o o', optP (fun t => forall t', t_map f t = Ok t' -> tnames t' = tnames t) o ->
    match o with None => Ok None | Some x => do y <- t_map f x; Ok (Some y) end = Ok o' -> otnames o' = otnames o).
  { intros [x|] o' Q E; [|now inv E]. apply bind_Ok in E. destruct E as (y & E & Z). inv Z. now apply Q. }
  rewrite (X _ _ IHl Hl), (X _ _ IHr Hr). reflexivity.
Qed.

Lemma map_total t : forall t', t_map f t = Ok t' -> uniq (tnames t) ->
  forall k st s tab, t_size t <= k -> rep st s t -> usound tab ->
  exists s' st' tr tab' lg, u_map eqA sf k s st tab = Ok (s', st', tr, tab', lg) /\ rep st' s' t' /\ upto (tnames t) st st'.
Proof.
  induction t as [lv nm d l r IHl IHr] using tree_induction. intros t' H Un k st s tab K R Sd.
  pose proof (t_map_names _ _ H) as Nm.
  rewrite tnames_eq in Un, Nm |- *. cbn [t_name t_left t_right] in Un, Nm |- *.
  apply rep_eq in R. cbn [t_level t_name t_peek t_left t_right] in R. destruct R as (H1 & H2 & sl & sr & Lk & Rl & Rr).
  destruct k as [|k]; [simpl in K; lia|]. cbn [u_map].
  rewrite (u_bind_eq _ _ _ _ _ _ _ _ _ (eq_refl : u_enter s st tab = Ok (tt, st, [], tab, [s]))).
  destruct (u_force_look s st tab _ Lk) as [tr1 F]. rewrite (u_bind_eq _ _ _ _ _ _ _ _ _ F). cbn [t_map] in H.
  apply bind_Ok in H. destruct H as (l' & Hl & H). apply bind_Ok in H. destruct H as (r' & Hr & H).
  apply bind_Ok in H. destruct H as (d' & Hd & H). apply new_Ok in H. subst t'. rewrite tnames_eq in Nm. cbn [t_name t_left t_right] in Nm.
  assert (Child : forall n o so o' st tab, optP (fun t => forall t', t_map f t = Ok t' -> uniq (tnames t) ->
      forall k st s tab, t_size t <= k -> rep st s t -> usound tab ->
      exists s' st' tr tab' lg, u_map eqA sf k s st tab = Ok (s', st', tr, tab', lg) /\ rep st' s' t' /\ upto (tnames t) st st') o ->
    usound tab -> orep st so o -> uniq (otnames o) -> match o with None => 0 | Some x => t_size x end <= k ->
    match o with None => Ok None | Some x => do y <- t_map f x; Ok (Some y) end = Ok o' ->
    exists so' st' tr tab' lg,
      match so with None => u_ret None | Some t1 => upd x <- u_memo_opt eqA n t1 (u_map eqA sf k t1); u_ret (Some x) end st tab
        = Ok (so', st', tr, tab', lg) /\ orep st' so' o' /\ upto (otnames o) st st' /\ usound tab' /\ otnames o' = otnames o).
  { clear - agree replay. intros n [t1|] [s1|] o' st tab IH Sd Ro Un Sz E; cbn [orep otnames optP] in *; try contradiction.
    - apply bind_Ok in E. destruct E as (t1' & E & Z). inv Z.
      destruct (memo_total n s1 t1 t1' (u_map eqA sf k s1) tab st Sd Ro E (t_map_names _ _ E) (IH _ E Un k st s1 tab Sz Ro Sd))
        as (s' & st' & tr & tab' & lg & B & R' & U).
      destruct (memo_sound n s1 _ (fun st tab s' st' tr tab' lg => map_sound k s1 st tab s' st' tr tab' lg) _ _ _ _ _ _ _ Sd B) as [Sd' _].
      exists (Some s'), st'. rewrite (u_bind_eq _ _ _ _ _ _ _ _ _ B). cbn [u_ret bind]. do 3 eexists. split; [reflexivity|].
      repeat split; auto. now apply t_map_names.
    - inv E. do 5 eexists. split; [reflexivity|]. repeat split; auto. }
  destruct (Child (fork_left (st_name s)) l sl l' st tab IHl Sd Rl ltac:(names) ltac:(simpl in K; lia) Hl)
    as (sl' & st1 & tr2 & tab1 & lg2 & E1 & Rl' & U1 & Sd1 & N1).
  rewrite (u_bind_eq _ _ _ _ _ _ _ _ _ E1). clear E1.
  assert (Rr1 : orep st1 sr r) by (apply (orep_frame _ _ _ _ _ U1); [names|exact Rr]).
  destruct (Child (fork_right (st_name s)) r sr r' st1 tab1 IHr Sd1 Rr1 ltac:(names) ltac:(simpl in K; lia) Hr)
    as (sr' & st2 & tr3 & tab2 & lg3 & E2 & Rr' & U2 & Sd2 & N2).
  rewrite (u_bind_eq _ _ _ _ _ _ _ _ _ E2). clear E2 Child.
  assert (Rl2 : orep st2 sl' l') by (apply (orep_frame _ _ _ _ _ U2); [rewrite N1; names|exact Rl']).
  rewrite H1, H2. destruct (agree st2 tab2 d lv nm sl' sr' l' r' Rl2 Rr') as (tr4 & E4). rewrite Hd in E4. cbn [bind] in E4.
  rewrite (u_bind_eq _ _ _ _ _ _ _ _ _ E4).
  destruct (tree_new_rep st2 lv nm d' sl' sr') as (s' & st' & X & U3 & Y1 & Y2 & Lk').
  assert (E5 : exists tr5, u_tree_new lv nm d' sl' sr' st2 tab2 = Ok (Some s', st', tr5, tab2, [])).
  { unfold u_tree_new. destruct nm; cbn in X; inv X; eauto. }
  destruct E5 as (tr5 & E5). rewrite (u_bind_eq _ _ _ _ _ _ _ _ _ E5). cbn [u_lift unwrap bind].
  do 5 eexists. split; [reflexivity|]. split.
  - apply rep_eq. cbn [t_level t_name t_peek t_left t_right]. split; [exact Y1|]. split; [exact Y2|].
    exists sl', sr'. split; [exact Lk'|].
    split; (apply (orep_frame _ _ _ _ _ U3); [rewrite ?N1, ?N2; names|assumption]).
  - apply (upto_trans _ _ st1); [apply (upto_sub (otnames l)); [names|exact U1]|].
    apply (upto_trans _ _ st2); [apply (upto_sub (otnames r)); [names|exact U2]|].
    apply (upto_sub (oroot nm)); [names|exact U3].
Qed.
End Map.
End Tree.

Section Raz.
Context {E M : Type} {RM : RazMeta E M} (eqD : forall x y : tree_data E M, {x = y} + {x <> y}) {Nsp : here}.
Notation rdata := (tree_data E M).
Notation rstore := (store (level * list E) rdata).
Notation rtab := (itab rdata (stree rdata) (stree rdata)).
Implicit Types (st : rstore) (tab : rtab).

Lemma u_peek_rep {K V} so o st (tab : itab rdata K V) : orep st so o -> exists tr, u_peek_op so st tab = Ok (peek_op o, st, tr, tab, []).
Proof.
  destruct so as [s|], o as [t|]; cbn [orep]; try contradiction; [|eexists; reflexivity].
  intros R. apply rep_eq in R. destruct R as (_ & _ & sl & sr & Lk & _).
  destruct (u_force_look s st tab _ Lk) as [tr F]. exists (tr ++ []).
  unfold u_peek_op. rewrite (u_bind_eq _ _ _ _ _ _ _ _ _ F). reflexivity.
Qed.
Lemma u_peek_Ok {K V} so st (tab : itab rdata K V) d st' tr (tab' : itab rdata K V) lg : u_peek_op so st tab = Ok (d, st', tr, tab', lg) ->
  st' = st /\ tab' = tab /\ lg = [] /\
  forall st2 o, held eqD st2 tr -> orep st2 so o -> peek_op o = d.
Proof.
  destruct so as [s|]; cbn [u_peek_op]; intros H.
  - apply u_bind_Ok in H. destruct H as ([[d0 sl] sr] & st1 & tr1 & tab1 & lg1 & tr2 & lg2 & H1 & H & -> & ->). inv H.
    apply (u_force_Ok eqD) in H1. destruct H1 as (Lk & -> & -> & -> & P). repeat split; auto.
    intros st2 o Q Ro. destruct o as [t|]; [|contradiction]. rewrite app_nil_r in Q. simpl in Ro. apply rep_eq in Ro.
    destruct Ro as (_ & _ & a & b & L2 & _). rewrite (P _ Q) in L2. injection L2 as -> _ _. reflexivity.
  - inv H. repeat split; auto. intros st2 o _ Ro. destruct o; [contradiction|reflexivity].
Qed.

Lemma map_node_agrees f st tab d lv nm sl sr l r : orep st sl l -> orep st sr r ->
  exists tr, u_map_node f d lv nm sl sr st tab = do d' <- p_map_node f d lv nm l r; Ok (d', st, tr, tab, []).
Proof.
  intros Hl Hr. unfold u_map_node, p_map_node. destruct d; try solve [eexists; reflexivity];
    (destruct (u_peek_rep _ _ _ tab Hl) as [tr1 X1]; destruct (u_peek_rep _ _ _ tab Hr) as [tr2 X2];
     exists (tr1 ++ tr2 ++ []); rewrite (u_bind_eq _ _ _ _ _ _ _ _ _ X1), (u_bind_eq _ _ _ _ _ _ _ _ _ X2); unfold u_lift;
     destruct (td_rebuild _ _ _ _ _); reflexivity).
Qed.
Lemma map_node_replay f st tab d lv nm sl sr d' st1 tr tab1 lg :
  u_map_node f d lv nm sl sr st tab = Ok (d', st1, tr, tab1, lg) ->
  st1 = st /\ tab1 = tab /\ lg = [] /\
  forall st2 l r d2, held eqD st2 tr -> orep st2 sl l -> orep st2 sr r -> p_map_node f d lv nm l r = Ok d2 -> d2 = d'.
Proof.
  unfold u_map_node, p_map_node. destruct d; intros H;
    try solve [inv H; repeat split; auto; intros st2 l r d2 _ _ _ Z; now inv Z];
    (apply u_bind_Ok in H; destruct H as (dl & st2 & tr2 & tab2 & lg2 & tr3 & lg3 & H1 & H & -> & ->);
     apply u_bind_Ok in H; destruct H as (dr & st3 & tr3' & tab3 & lg3' & tr4 & lg4 & H2 & H & -> & ->);
     unfold u_lift in H; apply bind_Ok in H; destruct H as (y & H & Z); inv Z;
     apply u_peek_Ok in H1; destruct H1 as (-> & -> & -> & P1); apply u_peek_Ok in H2; destruct H2 as (-> & -> & -> & P2);
     repeat split; auto; intros st4 o1 o2 d2 Q Rl Rr Z; rewrite !held_app in Q; destruct Q as (Q1 & Q2 & _);
     rewrite (P1 _ _ Q1 Rl), (P2 _ _ Q2 Rr) in Z; congruence).
Qed.

Lemma u_treetop_rep {K V} so o st (tab : itab rdata K V) m : orep st so o -> treetop_meta o = Ok m ->
  exists tr, u_treetop_meta so st tab = Ok (m, st, tr, tab, []).
Proof.
  intros R H. destruct (u_peek_rep _ _ _ tab R) as [tr X]. unfold u_treetop_meta. rewrite (u_bind_eq _ _ _ _ _ _ _ _ _ X).
  destruct o as [t|]; cbn [peek_op option_map treetop_meta] in *.
  - destruct (t_peek t); try discriminate; inv H; eexists; reflexivity.
  - inv H. eexists. reflexivity.
Qed.
Lemma u_treetop_Ok {K V} so st (tab : itab rdata K V) m st' tr (tab' : itab rdata K V) lg : u_treetop_meta so st tab = Ok (m, st', tr, tab', lg) ->
  st' = st /\ tab' = tab /\ lg = [].
Proof.
  unfold u_treetop_meta. intros H. apply u_bind_Ok in H. destruct H as (d & st1 & tr1 & tab1 & lg1 & tr2 & lg2 & H1 & H & -> & ->).
  apply u_peek_Ok in H1. destruct H1 as (-> & -> & -> & _). destruct d as [[| |]|]; inv H; auto.
Qed.
Lemma u_treetop_held {K V} so st (tab : itab rdata K V) m st' tr (tab' : itab rdata K V) lg : u_treetop_meta so st tab = Ok (m, st', tr, tab', lg) ->
  forall st2 o, held eqD st2 tr -> orep st2 so o -> treetop_meta o = Ok m.
Proof.
  unfold u_treetop_meta. intros H st2' o Hd Ro. apply u_bind_Ok in H.
  destruct H as (d & st1 & tr1 & tab1 & lg1 & tr2 & lg2 & H1 & H & -> & ->).
  apply u_peek_Ok in H1. destruct H1 as (-> & -> & -> & P). rewrite held_app in Hd. specialize (P _ _ (proj1 Hd) Ro).
  destruct o as [t|]; cbn [peek_op option_map] in P; subst d; cbn [treetop_meta].
  - destruct (t_peek t); now inv H.
  - now inv H.
Qed.

Notation rsound f := (usound eqD (T := level * list E) (p_map_node f)).
Lemma rt_map_sound k f h st tab h' st' tr tab' lg : rsound f tab ->
  u_rt_map eqD k f h st tab = Ok (h', st', tr, tab', lg) -> rsound f tab'.
Proof.
  intros Sd H. unfold u_rt_map in H.
  apply u_bind_Ok in H. destruct H as (so & st1 & tr1 & tab1 & lg1 & tr2 & lg2 & H1 & H & -> & ->).
  apply u_bind_Ok in H. destruct H as (m & st2 & tr2' & tab2 & lg2' & tr3 & lg3 & H2 & H & -> & ->). inv H.
  apply u_treetop_Ok in H2. destruct H2 as (-> & -> & ->). destruct (srt_tree h) as [s|]; [|now inv H1].
  apply u_bind_Ok in H1. destruct H1 as (x & st3 & tr3 & tab3 & lg3 & tr4 & lg4 & H1 & H & -> & ->). inv H.
  exact (proj1 (map_sound eqD _ _ (map_node_replay f) _ _ _ _ _ _ _ _ _ Sd H1)).
Qed.
Lemma rt_map_total f (t t' : raz_tree E M) : rt_map f t = Ok t' -> uniq (rtnames t) ->
  ev (fun k => forall st tab h, rsound f tab -> rtrep st h t ->
    exists h' st' tr tab' lg, u_rt_map eqD k f h st tab = Ok (h', st', tr, tab', lg) /\ rtrep st' h' t' /\ upto (rtnames t) st st').
Proof.
  intros H Un. unfold rt_map in H. apply bind_Ok in H. destruct H as (o & H1 & H2).
  unfold mk_raz_tree in H2. apply bind_Ok in H2. destruct H2 as (m & H2 & Z). inv Z.
  exists (match rt_tree t with None => 0 | Some u => t_size u end). intros k K st tab h Sd [Hm Hr].
  unfold u_rt_map, rtnames in *. destruct (srt_tree h) as [s|], (rt_tree t) as [u|]; cbn [orep otnames] in *; try contradiction.
  - apply bind_Ok in H1. destruct H1 as (u' & H1 & E1). injection E1 as <-.
    destruct (map_total eqD (p_map_node f) (u_map_node f) (map_node_agrees f) (map_node_replay f) u u' H1 Un k st s tab K Hr Sd)
      as (s' & st' & tr & tab' & lg & X & Y & U).
    destruct (u_treetop_rep (Some s') (Some u') st' tab' m Y H2) as [tr2 W].
    assert (X' : (upd x <- u_map eqD (u_map_node f) k s; u_ret (Some x)) st tab = Ok (Some s', st', tr ++ [], tab', lg ++ [])).
    { rewrite (u_bind_eq _ _ _ _ _ _ _ _ _ X). reflexivity. }
    rewrite (u_bind_eq _ _ _ _ _ _ _ _ _ X'), (u_bind_eq _ _ _ _ _ _ _ _ _ W). cbn [u_ret bind].
    do 5 eexists. split; [reflexivity|]. split; [|exact U]. split; [reflexivity|exact Y].
  - injection H1 as <-. destruct (u_treetop_rep None None st tab m I H2) as [tr2 W].
    rewrite (u_bind_eq _ _ _ _ _ _ _ _ _ (eq_refl : u_ret None st tab = Ok (None, st, [], tab, []))),
      (u_bind_eq _ _ _ _ _ _ _ _ _ W). cbn [u_ret bind].
    do 5 eexists. split; [reflexivity|]. split; [|apply upto_refl]. split; [reflexivity|exact I].
Qed.

Lemma ran_sound f hist tab : ran (fun k => u_rt_map eqD k f) hist tab -> rsound f tab.
Proof. induction 1 as [|h tab k st x y st' tr tab' lg _ IH H]; [apply usound_none|]. eapply rt_map_sound; eauto. Qed.

Theorem next_map f (t t' : raz_tree E M) : rt_map f t = Ok t' -> NoDup (node_names t) ->
  exists k0, forall k hist tab st h, k0 <= k -> ran (fun k => u_rt_map eqD k f) hist tab -> tree_reads st h t ->
  exists h' st' tr tab' lg, u_rt_map eqD k f h st tab = Ok (h', st', tr, tab', lg) /\ tree_reads st' h' t' /\
    (forall b, fst b <> path \/ ~ In (snd b) (node_names t) -> st' b = st b) /\
    (tree_reads (without path st) h t -> tree_reads st' h t).
Proof.
  intros H Nd. destruct (rt_map_total f t t' H (names_uniq _ Nd)) as [k0 K]. exists k0. intros k hist tab st h Hk Hs R.
  destruct (K k Hk st tab h (ran_sound _ _ _ Hs) (proj1 (tree_reads_rep _ _ _) R)) as (h' & st' & tr & tab' & lg & X & Y & U).
  exists h', st', tr, tab', lg. split; [exact X|]. split; [now apply tree_reads_rep|]. split; [now apply names_upto|].
  intros W. apply (tree_reads_below (without path st)); [|exact W].
  intros b c. unfold without. destruct (list_eq_dec name_eq_dec (fst b) path) as [e|D]; [discriminate|].
  intros Hb. rewrite U by auto. exact Hb.
Qed.
End Raz.
