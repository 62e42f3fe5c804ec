(** * The memoised builders over the store answer as the pure ones. *)

From Verif Require Import Base BaseFacts Spec LevelTreeModel TreeSpec TreeProofs TreeCursorModel RazMetaModel RazModel MemoModel MemoSpec MemoProofs
  MemoHistory SpecRaz RazView RazScripts RazReach ExampleModel ExampleSpec ExampleProofs StoreModel StoreSpec StoreScripts StoreProofs StoreRaz StoreHistory StoreNs StoreMapModel StoreMapProofs
  IncModel IncSpec IncProofs IncMapModel IncMapSpec IncMapProofs BuildIncModel.

Section Fold.
Context {T A V X : Type} {TU : TreeUpdate A} (eqA : forall x y : A, {x = y} + {x <> y}) (q : here) {Nsp : here}.
Implicit Types (st : store T A) (s : stree A) (t : tree A).
Notation held := (held eqA).
Notation upto := (upto (Nsp := q)).
Variable rel : store T A -> V -> X -> Prop.
Variable nms : X -> list name.
Hypothesis rel_frame : forall L st st' v x, upto L st st' -> apart (nms x) L -> rel st v x -> rel st' v x.
Definition orel st (v : option V) (x : option X) : Prop :=
  match v, x with None, None => True | Some v, Some x => rel st v x | _, _ => False end.
Definition onms (x : option X) : list name := match x with None => [] | Some x => nms x end.
Lemma orel_frame L st st' v x : upto L st st' -> apart (onms x) L -> orel st v x -> orel st' v x.
Proof. destruct v, x; simpl; auto. apply rel_frame. Qed.

Variable pf : option X -> A -> level -> option name -> option X -> res X.
Variable sf : option V -> A -> level -> option name -> option V -> um T A (stree A) V V.
Hypothesis replay : forall st tab d lv nm sl sr v st1 tr tab1 lg, sf sl d lv nm sr st tab = Ok (v, st1, tr, tab1, lg) ->
  tab1 = tab /\ lg = [] /\
  forall st2 l r x, held st2 tr -> orel st2 sl l -> orel st2 sr r -> pf l d lv nm r = Ok x -> rel st2 v x.
Hypothesis agree : forall st tab d lv nm sl sr l r x, orel st sl l -> orel st sr r -> pf l d lv nm r = Ok x ->
  uniq (oroot nm ++ onms l ++ onms r) ->
  exists v st' tr, sf sl d lv nm sr st tab = Ok (v, st', tr, tab, []) /\ rel st' v x /\ upto (oroot nm) st st'.
Hypothesis pnames : forall l d lv nm r x, pf l d lv nm r = Ok x -> sub (nms x) (oroot nm ++ onms l ++ onms r).

Notation ofold o := (match o with None => Ok None | Some t => do x <- t_fold_up_meta pf t; Ok (Some x) end).
Definition fold_good s st (v : V) : Prop := forall t x, rep st s t -> t_fold_up_meta pf t = Ok x -> rel st v x.
Definition bsound (tab : itab A (stree A) V) : Prop :=
  forall a e, tab a = Some e -> forall st, held st (e_seen e) -> fold_good (e_arg e) st (e_res e).

Lemma bsound_none : bsound no_entries.
Proof. discriminate. Qed.

Lemma bmemo_sound n s body :
  (forall st tab v st' tr tab' lg, bsound tab -> body st tab = Ok (v, st', tr, tab', lg) ->
    bsound tab' /\ forall st2, held st2 tr -> fold_good s st2 v) ->
  forall st tab v st' tr tab' lg, bsound tab -> u_memo_opt eqA n s body st tab = Ok (v, st', tr, tab', lg) ->
    bsound tab' /\ forall st2, held st2 tr -> fold_good s st2 v.
Proof.
  intros B st tab v st' tr tab' lg Sd H. destruct n as [n|]; [|eauto]. cbn [u_memo_opt] in H. unfold u_memo in H.
  assert (Rr : (do ' (r, st', s0, tab', lg) <- body st tab; Ok (r, st', s0, i_set tab' (path, n) (Entry s s0 r), lg)) = Ok (v, st', tr, tab', lg) ->
     bsound tab' /\ forall st2, held st2 tr -> fold_good s st2 v).
  { intros Q. apply bind_Ok in Q. destruct Q as ([[[[r st1] tr1] tab1] lg1] & Q & Z). inv Z.
    destruct (B _ _ _ _ _ _ _ Sd Q) as [S1 G]. split; [|exact G]. intros a e. unfold i_set.
    destruct (loc_eq_dec a (path, n)) as [->|Ne]; [|apply S1]. intros [= <-]. exact G. }
  destruct (tab (path, n)) as [e|] eqn:Te; [|exact (Rr H)].
  destruct (stree_same eqA s (e_arg e) && forallb (holds eqA st) (e_seen e)) eqn:Sm; [|exact (Rr H)].
  apply andb_true_iff in Sm. destruct Sm as (Sk & _). apply stree_same_eq in Sk. subst s. inv H.
  split; [exact Sd|]. exact (Sd _ _ Te).
Qed.

Lemma fold_sound k : forall s st tab v st' tr tab' lg, bsound tab ->
  u_fold_up_meta eqA sf k s st tab = Ok (v, st', tr, tab', lg) -> bsound tab' /\ forall st2, held st2 tr -> fold_good s st2 v.
Proof.
  induction k as [|k IH]; intros s st tab v st' tr tab' lg Sd H; [discriminate|]. cbn [u_fold_up_meta] in H.
  apply u_bind_Ok in H. destruct H as ([] & st0 & tr0 & tab0 & lg0 & tr1 & lg1 & H0 & H & -> & ->). inv H0.
  apply u_bind_Ok in H. destruct H as ([[d sl] sr] & st1 & tr1' & tab1 & lg1' & tr2 & lg2 & H1 & H & -> & ->).
  apply (u_force_Ok eqA) in H1. destruct H1 as (Lk & -> & -> & -> & P1).
  apply u_bind_Ok in H. destruct H as (sl' & st2 & tr2' & tab2 & lg2' & tr3 & lg3 & H2 & H & -> & ->).
  apply u_bind_Ok in H. destruct H as (sr' & st3 & tr3' & tab3 & lg3' & tr4 & lg4 & H3 & H & -> & ->).
  assert (Child : forall n so so' st tab st' tr tab' lg, bsound tab ->
    match so with None => u_ret None | Some t1 => upd x <- u_memo_opt eqA n t1 (u_fold_up_meta eqA sf k t1); u_ret (Some x) end st tab
      = Ok (so', st', tr, tab', lg) ->
    bsound tab' /\ forall st2 o o', held st2 tr -> orep st2 so o -> ofold o = Ok o' -> orel st2 so' o').
  { clear - IH. intros n [s1|] so' st tab st' tr tab' lg Sd H.
    - apply u_bind_Ok in H. destruct H as (x & st1 & tr1 & tab1 & lg1 & tr2 & lg2 & H & Z & -> & ->). inv Z.
      destruct (bmemo_sound n s1 _ (fun st tab v st' tr tab' lg => IH s1 st tab v st' tr tab' lg) _ _ _ _ _ _ _ Sd H) as [Sd1 G].
      split; [exact Sd1|]. intros st2 o o' P Ro E. destruct o as [t1|]; [|contradiction]. apply bind_Ok in E.
      destruct E as (x1 & E & Z). inv Z. rewrite app_nil_r in P. exact (G st2 P t1 x1 Ro E).
    - inv H. split; [exact Sd|]. intros st2 o o' _ Ro E. destruct o; [contradiction|]. inv E. exact I. }
  destruct (Child _ _ _ _ _ _ _ _ _ Sd H2) as [Sd2 G2]. destruct (Child _ _ _ _ _ _ _ _ _ Sd2 H3) as [Sd3 G3].
  destruct (replay _ _ _ _ _ _ _ _ _ _ _ _ H) as (-> & -> & P4). split; [exact Sd3|].
  intros st2' P t x Rp Mp. cbn [app] in P. rewrite !held_app in P. destruct P as (Q1 & Q2 & Q3 & Q4).
  apply rep_eq in Rp. destruct Rp as (E1 & E2 & a & b & Lk2 & Rl & Rr). rewrite (P1 _ Q1) in Lk2. injection Lk2 as -> -> ->.
  destruct t as [lv nm d l r]. cbn [t_level t_name t_peek t_left t_right] in *. cbn [t_fold_up_meta] in Mp.
  apply bind_Ok in Mp. destruct Mp as (l' & Ml & Mp). apply bind_Ok in Mp. destruct Mp as (r' & Mr & Mp). subst lv nm.
  exact (P4 _ _ _ _ Q4 (G2 _ _ _ Q2 Rl Ml) (G3 _ _ _ Q3 Rr Mr) Mp).
Qed.

Lemma fold_names t : forall x, t_fold_up_meta pf t = Ok x -> sub (nms x) (tnames t).
Proof.
  induction t as [lv nm d l r IHl IHr] using tree_induction. intros x H. cbn [t_fold_up_meta] in H.
  apply bind_Ok in H. destruct H as (l' & Hl & H). apply bind_Ok in H. destruct H as (r' & Hr & H).
  apply pnames in H. rewrite tnames_eq. cbn [t_name t_left t_right].
  assert (Y : forall o o', optP (fun t => forall x, t_fold_up_meta pf t = Ok x -> sub (nms x) (tnames t)) o ->
    ofold o = Ok o' -> sub (onms o') (otnames o)).
  { intros [t|] o' Q E; [|inv E; apply sub_refl]. apply bind_Ok in E. destruct E as (y & E & Z). inv Z. now apply Q. }
  pose proof (Y _ _ IHl Hl). pose proof (Y _ _ IHr Hr). names.
Qed.
Lemma ofold_names o o' : ofold o = Ok o' -> sub (onms o') (otnames o).
Proof. destruct o as [t|]; intros E; [|inv E; apply sub_refl]. apply bind_Ok in E. destruct E as (y & E & Z). inv Z. now apply fold_names. Qed.

Lemma bmemo_total n s t x body tab st : bsound tab -> rep st s t -> t_fold_up_meta pf t = Ok x ->
  (exists v st' tr tab' lg, body st tab = Ok (v, st', tr, tab', lg) /\ rel st' v x /\ upto (tnames t) st st') ->
  exists v st' tr tab' lg, u_memo_opt eqA n s body st tab = Ok (v, st', tr, tab', lg) /\ rel st' v x /\
    upto (tnames t) st st'.
Proof.
  intros Sd Rp Mp (v & st' & tr & tab' & lg & B & R' & U). destruct n as [n|]; [|eauto 10]. cbn [u_memo_opt]. unfold u_memo.
  assert (Rr : exists v st' tr tab' lg,
    (do ' (r, st', s0, tab', lg) <- body st tab; Ok (r, st', s0, i_set tab' (path, n) (Entry s s0 r), lg)) = Ok (v, st', tr, tab', lg) /\
      rel st' v x /\ upto (tnames t) st st').
  { rewrite B. cbn [bind]. eauto 10. }
  destruct (tab (path, n)) as [e|] eqn:Te; [|exact Rr].
  destruct (stree_same eqA s (e_arg e) && forallb (holds eqA st) (e_seen e)) eqn:Sm; [|exact Rr].
  apply andb_true_iff in Sm. destruct Sm as (Sk & P). apply stree_same_eq in Sk. subst s.
  do 5 eexists. split; [reflexivity|]. split; [exact (Sd _ _ Te _ P _ _ Rp Mp)|apply upto_refl].
Qed.

Lemma fold_total t : forall x, t_fold_up_meta pf t = Ok x -> uniq (tnames t) ->
  forall k st s tab, t_size t <= k -> rep st s t -> bsound tab ->
  exists v st' tr tab' lg, u_fold_up_meta eqA sf k s st tab = Ok (v, st', tr, tab', lg) /\ rel st' v x /\ upto (tnames t) st st'.
Proof.
  induction t as [lv nm d l r IHl IHr] using tree_induction. intros x H Un k st s tab K R Sd.
  rewrite tnames_eq in Un |- *. cbn [t_name t_left t_right] in Un |- *.
  apply rep_eq in R. cbn [t_level t_name t_peek t_left t_right] in R. destruct R as (H1 & H2 & sl & sr & Lk & Rl & Rr).
  destruct k as [|k]; [simpl in K; lia|]. cbn [u_fold_up_meta].
  rewrite (u_bind_eq _ _ _ _ _ _ _ _ _ (eq_refl : u_enter s st tab = Ok (tt, st, [], tab, [s]))).
  destruct (u_force_look s st tab _ Lk) as [tr1 F]. rewrite (u_bind_eq _ _ _ _ _ _ _ _ _ F). cbn [t_fold_up_meta] in H.
  apply bind_Ok in H. destruct H as (l' & Hl & H). apply bind_Ok in H. destruct H as (r' & Hr & H).
  assert (Child : forall n o so o' st tab, optP (fun t => forall x, t_fold_up_meta pf t = Ok x -> uniq (tnames t) ->
      forall k st s tab, t_size t <= k -> rep st s t -> bsound tab ->
      exists v st' tr tab' lg, u_fold_up_meta eqA sf k s st tab = Ok (v, st', tr, tab', lg) /\ rel st' v x /\ upto (tnames t) st st') o ->
    bsound tab -> orep st so o -> uniq (otnames o) -> match o with None => 0 | Some x => t_size x end <= k -> ofold o = Ok o' ->
    exists so' st' tr tab' lg,
      match so with None => u_ret None | Some t1 => upd x <- u_memo_opt eqA n t1 (u_fold_up_meta eqA sf k t1); u_ret (Some x) end st tab
        = Ok (so', st', tr, tab', lg) /\ orel st' so' o' /\ upto (otnames o) st st' /\ bsound tab').
  { clear - agree replay. intros n [t1|] [s1|] o' st tab IH Sd Ro Un Sz E; cbn [orep otnames optP] in *; try contradiction.
    - apply bind_Ok in E. destruct E as (x1 & E & Z). inv Z.
      destruct (bmemo_total n s1 t1 x1 (u_fold_up_meta eqA sf k s1) tab st Sd Ro E (IH _ E Un k st s1 tab Sz Ro Sd))
        as (v & st' & tr & tab' & lg & B & R' & U).
      destruct (bmemo_sound n s1 _ (fun st tab v st' tr tab' lg => fold_sound k s1 st tab v st' tr tab' lg) _ _ _ _ _ _ _ Sd B) as [Sd' _].
      exists (Some v), st'. rewrite (u_bind_eq _ _ _ _ _ _ _ _ _ B). cbn [u_ret bind]. do 3 eexists. split; [reflexivity|].
      repeat split; auto.
    - inv E. do 5 eexists. split; [reflexivity|]. repeat split; auto. }
  destruct (Child (fork_left (st_name s)) l sl l' st tab IHl Sd Rl ltac:(names) ltac:(simpl in K; lia) Hl)
    as (sl' & st1 & tr2 & tab1 & lg2 & E1 & Rl' & U1 & Sd1).
  rewrite (u_bind_eq _ _ _ _ _ _ _ _ _ E1). clear E1.
  assert (Rr1 : orep st1 sr r) by (apply (orep_frame (Nsp := q) _ _ _ _ _ U1); [names|exact Rr]).
  destruct (Child (fork_right (st_name s)) r sr r' st1 tab1 IHr Sd1 Rr1 ltac:(names) ltac:(simpl in K; lia) Hr)
    as (sr' & st2 & tr3 & tab2 & lg3 & E2 & Rr' & U2 & Sd2).
  rewrite (u_bind_eq _ _ _ _ _ _ _ _ _ E2). clear E2 Child.
  pose proof (ofold_names _ _ Hl) as Nl. pose proof (ofold_names _ _ Hr) as Nr.
  assert (Rl2 : orel st2 sl' l') by (apply (orel_frame _ _ _ _ _ U2); [names|exact Rl']).
  rewrite H1, H2. destruct (agree st2 tab2 d lv nm sl' sr' l' r' x Rl2 Rr' H ltac:(names)) as (v & st' & tr4 & E4 & Rv & U4).
  rewrite E4. cbn [bind]. do 5 eexists. split; [reflexivity|]. split; [exact Rv|].
  apply (upto_trans _ _ st1); [apply (upto_sub (otnames l)); [names|exact U1]|].
  apply (upto_trans _ _ st2); [apply (upto_sub (otnames r)); [names|exact U2]|].
  apply (upto_sub (oroot nm)); [names|exact U4].
Qed.
End Fold.

(** ** The operations of the Raz tree *)
Section Raz.
Context {E M : Type} {RM : RazMeta E M} (eqD : forall x y : tree_data E M, {x = y} + {x <> y}) {Nsp : here}.
Notation rdata := (tree_data E M).
Notation rstore := (store (level * list E) rdata).
Notation rtab := (itab rdata (stree rdata) (sraz_tree E M)).
Notation held := (held eqD).
Implicit Types (st : rstore) (tab : rtab).

Lemma new_agree st tab lv nm d sl sr : exists s st' tr, u_tree_new lv nm d sl sr st tab = Ok (Some s, st', tr, tab, []) /\
  upto (oroot nm) st st' /\ st_level s = lv /\ st_name s = nm /\ tree_look st' s = Some (d, sl, sr).
Proof.
  destruct (tree_new_rep st lv nm d sl sr) as (s & st' & H & U & Y1 & Y2 & Lk). exists s, st'.
  unfold u_tree_new. destruct nm; cbn in H; injection H as <- <-; eexists; (split; [reflexivity|]); auto.
Qed.
Lemma new_replay st tab lv nm d sl sr o st1 tr tab1 lg : u_tree_new lv nm d sl sr st tab = Ok (o, st1, tr, tab1, lg) ->
  tab1 = tab /\ lg = [] /\ exists s, o = Some s /\ st_level s = lv /\ st_name s = nm /\
  forall st2, held st2 tr -> tree_look st2 s = Some (d, sl, sr).
Proof.
  unfold u_tree_new. destruct nm as [n|]; intros H; inv H; (split; [reflexivity|]); (split; [reflexivity|]);
    eexists; (split; [reflexivity|]); (split; [reflexivity|]); (split; [reflexivity|]); intros st2 P; [|reflexivity].
  unfold IncProofs.held in P. cbn [forallb] in P. rewrite andb_true_r in P. now apply holds_eq in P.
Qed.
Lemma node_rep st s lv nm d sl sr l r : st_level s = lv -> st_name s = nm -> tree_look st s = Some (d, sl, sr) ->
  orep st sl l -> orep st sr r -> rep st s (Node lv nm d l r).
Proof. intros. apply rep_eq. cbn [t_level t_name t_peek t_left t_right]. eauto 10. Qed.

Lemma leaf_agree st tab v t : leaf v None = Ok t ->
  exists s tr, u_leaf v None st tab = Ok (s, st, tr, tab, []) /\ rep st s t.
Proof.
  intros H. unfold leaf in H. apply new_Ok in H. subst t. do 2 eexists. split; [reflexivity|].
  apply (node_rep _ _ _ _ _ None None); auto; exact I.
Qed.
Lemma leaf_replay st tab v s st1 tr tab1 lg : u_leaf v None st tab = Ok (s, st1, tr, tab1, lg) ->
  tab1 = tab /\ lg = [] /\ forall st2 t, held st2 tr -> leaf v None = Ok t -> rep st2 s t.
Proof.
  unfold u_leaf, u_tree_new, u_bind, u_lift. cbn [bind unwrap]. intros H. inv H. split; [reflexivity|]. split; [reflexivity|].
  intros st2 t _ H. unfold leaf in H. apply new_Ok in H. subst t. apply (node_rep _ _ _ _ _ None None); auto; exact I.
Qed.

Lemma bin_names t1 l n t2 t : @bin E M RM t1 l n t2 = Ok t -> tnames t = oroot n ++ tnames t1 ++ tnames t2.
Proof. unfold bin. intros H. apply bind_Ok in H. destruct H as (d & _ & H). apply new_Ok in H. subst t. now rewrite tnames_eq. Qed.
Lemma bin_agree st tab s1 s2 t1 t2 l n t : rep st s1 t1 -> rep st s2 t2 -> bin t1 l n t2 = Ok t ->
  uniq (oroot n ++ tnames t1 ++ tnames t2) ->
  exists s st' tr, u_bin s1 l n s2 st tab = Ok (s, st', tr, tab, []) /\ rep st' s t /\ upto (oroot n) st st'.
Proof.
  intros R1 R2 H Un. unfold bin in H. apply bind_Ok in H. destruct H as (d & Hd & H). apply new_Ok in H. subst t.
  destruct (u_peek_rep (Some s1) (Some t1) st tab R1) as [tr1 X1]. destruct (u_peek_rep (Some s2) (Some t2) st tab R2) as [tr2 X2].
  unfold u_bin. rewrite (u_bind_eq _ _ _ _ _ _ _ _ _ X1), (u_bind_eq _ _ _ _ _ _ _ _ _ X2). cbn [peek_op option_map]. 
  assert (X3 : u_lift (td_rebuild (Some (t_peek t1)) Dummy l n (Some (t_peek t2))) st tab = Ok (d, st, [], tab, [])).
  { unfold u_lift. now rewrite Hd. }
  rewrite (u_bind_eq _ _ _ _ _ _ _ _ _ X3).
  destruct (new_agree st tab l n d (Some s1) (Some s2)) as (s & st' & tr & X4 & U & Y1 & Y2 & Lk).
  rewrite (u_bind_eq _ _ _ _ _ _ _ _ _ X4). cbn [u_lift unwrap bind]. do 3 eexists. split; [reflexivity|]. split; [|exact U].
  apply (node_rep _ _ _ _ _ _ _ _ _ Y1 Y2 Lk); (apply (orep_frame (oroot n) st); [exact U| |assumption]); cbn [otnames]; names.
Qed.
Lemma bin_replay st tab s1 s2 l n s st1 tr tab1 lg : u_bin s1 l n s2 st tab = Ok (s, st1, tr, tab1, lg) ->
  tab1 = tab /\ lg = [] /\ forall st2 t1 t2 t, held st2 tr -> rep st2 s1 t1 -> rep st2 s2 t2 -> bin t1 l n t2 = Ok t -> rep st2 s t.
Proof.
  unfold u_bin. intros H.
  apply u_bind_Ok in H. destruct H as (d1 & st2 & tr2 & tab2 & lg2 & tr3 & lg3 & H1 & H & -> & ->).
  apply u_bind_Ok in H. destruct H as (d2 & st3 & tr3' & tab3 & lg3' & tr4 & lg4 & H2 & H & -> & ->).
  apply u_bind_Ok in H. destruct H as (td & st4 & tr4' & tab4 & lg4' & tr5 & lg5 & H3 & H & -> & ->).
  apply u_bind_Ok in H. destruct H as (o & st5 & tr5' & tab5 & lg5' & tr6 & lg6 & H4 & H & -> & ->).
  apply (u_peek_Ok eqD) in H1. destruct H1 as (-> & -> & -> & P1). apply (u_peek_Ok eqD) in H2. destruct H2 as (-> & -> & -> & P2).
  unfold u_lift in H3. apply bind_Ok in H3. destruct H3 as (y & Hd & Z). inv Z.
  destruct (new_replay _ _ _ _ _ _ _ _ _ _ _ _ H4) as (-> & -> & s' & -> & Y1 & Y2 & Lk). cbn [u_lift unwrap bind] in H. inv H.
  split; [reflexivity|]. split; [reflexivity|]. intros st2 t1 t2 t Q R1 R2 B. rewrite !held_app in Q.
  destruct Q as (Q1 & Q2 & _ & Q4 & _). unfold bin in B. apply bind_Ok in B. destruct B as (d & Hd' & B). apply new_Ok in B. subst t.
  specialize (P1 _ (Some t1) Q1 R1). specialize (P2 _ (Some t2) Q2 R2). cbn [peek_op option_map] in P1, P2. subst d1 d2.
  rewrite Hd in Hd'. inv Hd'. apply (node_rep _ _ _ _ _ _ _ _ _ eq_refl eq_refl (Lk _ Q4)); assumption.
Qed.

Lemma mk_agree st tab so o t : orep st so o -> mk_raz_tree o = Ok t ->
  exists h tr, u_mk_raz_tree so st tab = Ok (h, st, tr, tab, []) /\ rtrep st h t /\ rt_tree t = o.
Proof.
  intros R H. unfold mk_raz_tree in H. apply bind_Ok in H. destruct H as (m & H & Z). inv Z.
  destruct (u_treetop_rep so o st tab m R H) as [tr W]. unfold u_mk_raz_tree. rewrite (u_bind_eq _ _ _ _ _ _ _ _ _ W).
  cbn [u_ret bind]. do 2 eexists. split; [reflexivity|]. split; [split; [reflexivity|exact R]|reflexivity].
Qed.
Lemma mk_replay st tab so h st1 tr tab1 lg : u_mk_raz_tree so st tab = Ok (h, st1, tr, tab1, lg) ->
  st1 = st /\ tab1 = tab /\ lg = [] /\ forall st2 o t, held st2 tr -> orep st2 so o -> mk_raz_tree o = Ok t -> rtrep st2 h t.
Proof.
  unfold u_mk_raz_tree. intros H.
  apply u_bind_Ok in H. destruct H as (m & st2 & tr2 & tab2 & lg2 & tr3 & lg3 & H1 & H & -> & ->). inv H.
  pose proof (u_treetop_held eqD _ _ _ _ _ _ _ _ H1) as P. apply (u_treetop_Ok eqD) in H1. destruct H1 as (-> & -> & ->).
  split; [reflexivity|]. split; [reflexivity|]. split; [reflexivity|]. intros st2 o t Q Ro Z. unfold mk_raz_tree in Z.
  apply bind_Ok in Z. destruct Z as (m' & Z & Y). inv Y. rewrite app_nil_r in Q. rewrite (P _ _ Q Ro) in Z. inv Z. split; [reflexivity|exact Ro].
Qed.

Lemma join_names a lv nm b t : rt_join a lv nm b = Ok (Some t) -> rtnames t = oroot nm ++ @rtnames E M a ++ rtnames b.
Proof.
  unfold rt_join, rtnames. destruct (rt_tree a) as [x|], (rt_tree b) as [y|]; try discriminate. intros H.
  apply bind_Ok in H. destruct H as (z & H & H1). apply bind_Ok in H1. destruct H1 as (w & H1 & Z). inv Z.
  unfold mk_raz_tree in H1. apply bind_Ok in H1. destruct H1 as (m & _ & Z). inv Z. exact (bin_names _ _ _ _ _ H).
Qed.
Lemma join_agree st tab ha hb a b lv nm t : rtrep st ha a -> rtrep st hb b -> rt_join a lv nm b = Ok (Some t) ->
  uniq (oroot nm ++ rtnames a ++ rtnames b) ->
  exists h st' tr, u_rt_join ha lv nm hb st tab = Ok (Some h, st', tr, tab, []) /\ rtrep st' h t /\ upto (oroot nm) st st'.
Proof.
  intros [_ Ra] [_ Rb] H Un. unfold rt_join, rtnames in *. unfold u_rt_join.
  destruct (rt_tree a) as [x|], (rt_tree b) as [y|]; try discriminate. destruct (srt_tree ha) as [sa|], (srt_tree hb) as [sb|]; try contradiction.
  cbn [orep otnames] in *. apply bind_Ok in H. destruct H as (z & H & H1). apply bind_Ok in H1. destruct H1 as (w & H1 & Z). inv Z.
  destruct (bin_agree st tab sa sb x y lv nm z Ra Rb H Un) as (s & st' & tr & X1 & R & U).
  destruct (mk_agree st' tab (Some s) (Some z) t R H1) as (h & tr2 & X2 & R2 & _).
  rewrite (u_bind_eq _ _ _ _ _ _ _ _ _ X1), (u_bind_eq _ _ _ _ _ _ _ _ _ X2). cbn [u_ret bind]. eauto 10.
Qed.
Lemma join_replay st tab ha hb lv nm h st1 tr tab1 lg : u_rt_join ha lv nm hb st tab = Ok (Some h, st1, tr, tab1, lg) ->
  tab1 = tab /\ lg = [] /\ forall st2 a b t, held st2 tr -> rtrep st2 ha a -> rtrep st2 hb b -> rt_join a lv nm b = Ok (Some t) -> rtrep st2 h t.
Proof.
  unfold u_rt_join. destruct (srt_tree ha) as [sa|] eqn:Ea, (srt_tree hb) as [sb|] eqn:Eb; intros H; try discriminate.
  apply u_bind_Ok in H. destruct H as (s & st2 & tr2 & tab2 & lg2 & tr3 & lg3 & H1 & H & -> & ->).
  apply u_bind_Ok in H. destruct H as (h' & st3 & tr3' & tab3 & lg3' & tr4 & lg4 & H2 & H & -> & ->). inv H.
  destruct (bin_replay _ _ _ _ _ _ _ _ _ _ _ H1) as (-> & -> & P1). destruct (mk_replay _ _ _ _ _ _ _ _ H2) as (-> & -> & -> & P2).
  split; [reflexivity|]. split; [reflexivity|]. intros st4 a b t Q [_ Ra] [_ Rb] J. rewrite !held_app in Q. destruct Q as (Q1 & Q2 & _).
  rewrite Ea in Ra. rewrite Eb in Rb. unfold rt_join in J. destruct (rt_tree a) as [x|], (rt_tree b) as [y|]; try discriminate.
  apply bind_Ok in J. destruct J as (z & J & J1). apply bind_Ok in J1. destruct J1 as (w & J1 & Z). inv Z.
  apply (P2 st4 (Some z) t Q2); [|exact J1]. exact (P1 _ _ _ _ Q1 Ra Rb J).
Qed.

Lemma vec_names v t : vec_tree v = Ok t -> @rtnames E M t = [].
Proof.
  unfold vec_tree, rt_from_vec, rt_empty, mk_raz_tree, rtnames. destruct v as [|e v]; cbn [bind]; intros H.
  - apply bind_Ok in H. destruct H as (m & _ & Z). now inv Z.
  - unfold leaf, tree_new in H. cbn [unwrap bind] in H. apply bind_Ok in H. destruct H as (o & H & Z).
    apply bind_Ok in H. destruct H as (w & H & Y). inv Y. apply bind_Ok in H. destruct H as (m & _ & Y). inv Y. now inv Z.
Qed.
Lemma vec_agree st tab v t : vec_tree v = Ok t -> exists h tr, u_vec_tree v st tab = Ok (h, st, tr, tab, []) /\ rtrep st h t.
Proof.
  unfold vec_tree, u_vec_tree, rt_from_vec, u_rt_from_vec, rt_empty. intros H. destruct v as [|e v]; cbn [bind] in H.
  - destruct (mk_agree st tab None None t I H) as (h & tr & X & R & _).
    rewrite (u_bind_eq _ _ _ _ _ _ _ _ _ (eq_refl : u_ret None st tab = Ok (None, st, [], tab, []))). rewrite X. cbn [bind]. eauto.
  - apply bind_Ok in H. destruct H as (o & H & Z). apply bind_Ok in H. destruct H as (l & Hl & H).
    apply bind_Ok in H. destruct H as (w & H & Y). inv Y. inv Z.
    destruct (leaf_agree st tab (e :: v) l Hl) as (s & tr & X & R). destruct (mk_agree st tab (Some s) (Some l) t R H) as (h & tr2 & X2 & R2 & _).
    assert (X3 : (upd t <- u_leaf (e :: v) None; upd rt <- u_mk_raz_tree (Some t); u_ret (Some rt)) st tab
      = Ok (Some h, st, tr ++ tr2 ++ [], tab, [])).
    { now rewrite (u_bind_eq _ _ _ _ _ _ _ _ _ X), (u_bind_eq _ _ _ _ _ _ _ _ _ X2). }
    rewrite (u_bind_eq _ _ _ _ _ _ _ _ _ X3). cbn [u_ret bind]. eauto.
Qed.
Lemma vec_replay st tab v h st1 tr tab1 lg : u_vec_tree v st tab = Ok (h, st1, tr, tab1, lg) ->
  tab1 = tab /\ lg = [] /\ forall st2 t, held st2 tr -> vec_tree v = Ok t -> rtrep st2 h t.
Proof.
  unfold vec_tree, u_vec_tree, rt_from_vec, u_rt_from_vec, rt_empty. intros H.
  apply u_bind_Ok in H. destruct H as (o & st2 & tr2 & tab2 & lg2 & tr3 & lg3 & H1 & H & -> & ->). destruct v as [|e v].
  - inv H1. destruct (mk_replay _ _ _ _ _ _ _ _ H) as (-> & -> & -> & P). split; [reflexivity|]. split; [reflexivity|].
    intros st3 t Q Z. exact (P st3 None t Q I Z).
  - apply u_bind_Ok in H1. destruct H1 as (s & st3 & tr3' & tab3 & lg3' & tr4 & lg4 & H1 & H2 & -> & ->).
    apply u_bind_Ok in H2. destruct H2 as (h' & st4 & tr4' & tab4 & lg4' & tr5 & lg5 & H2 & H3 & -> & ->). inv H3. inv H.
    destruct (leaf_replay _ _ _ _ _ _ _ _ H1) as (-> & -> & P1). destruct (mk_replay _ _ _ _ _ _ _ _ H2) as (-> & -> & -> & P2).
    split; [reflexivity|]. split; [reflexivity|]. intros st5 t Q Z. rewrite !held_app in Q. destruct Q as ((Q1 & Q2 & _) & _). cbn [bind] in Z.
    apply bind_Ok in Z. destruct Z as (o & Z & Y). apply bind_Ok in Z. destruct Z as (l & Zl & Z).
    apply bind_Ok in Z. destruct Z as (w & Z & W). inv W. inv Y.
    exact (P2 st5 (Some l) t Q2 (P1 _ _ Q1 Zl) Z).
Qed.
End Raz.

(** ** The combining closures of the examples *)
Section Build.
Context {E M : Type} {RM : RazMeta E M} (eqD : forall x y : tree_data E M, {x = y} + {x <> y}) {Nsp : here} (inner : name).
Notation rdata := (tree_data E M).
Notation rstore := (store (level * list E) rdata).
Notation rtab := (itab rdata (stree rdata) (sraz_tree E M)).
Notation held := (held eqD).
Implicit Types (st : rstore) (tab : rtab).
Notation q := (inner :: @path Nsp : here).

Lemma empty_rep st h t : rtrep st h t -> u_is_empty h = @rt_is_empty E M t.
Proof. intros [_ R]. unfold u_is_empty, rt_is_empty. destruct (srt_tree h), (rt_tree t); cbn [orep] in R; tauto. Qed.

Definition bin_replayed (ub : sraz_tree E M -> level -> option name -> sraz_tree E M -> um _ rdata (stree rdata) _ (sraz_tree E M))
    (pb : raz_tree E M -> level -> option name -> raz_tree E M -> res (raz_tree E M)) : Prop :=
  forall st tab lv nm ha hb h st1 tr tab1 lg, ub ha lv nm hb st tab = Ok (h, st1, tr, tab1, lg) ->
  tab1 = tab /\ lg = [] /\ forall st2 a b t, held st2 tr -> rtrep st2 ha a -> rtrep st2 hb b -> pb a lv nm b = Ok t -> rtrep st2 h t.
Definition bin_agrees (ub : sraz_tree E M -> level -> option name -> sraz_tree E M -> um _ rdata (stree rdata) _ (sraz_tree E M))
    (pb : raz_tree E M -> level -> option name -> raz_tree E M -> res (raz_tree E M)) : Prop :=
  forall st tab lv nm ha hb a b t, rtrep st ha a -> rtrep st hb b -> pb a lv nm b = Ok t ->
  uniq (oroot nm ++ rtnames a ++ rtnames b) ->
  exists h st' tr, ub ha lv nm hb st tab = Ok (h, st', tr, tab, []) /\ rtrep st' h t /\ upto (Nsp := q) (oroot nm) st st'.
Definition bin_named (pb : raz_tree E M -> level -> option name -> raz_tree E M -> res (raz_tree E M)) : Prop :=
  forall a lv nm b t, pb a lv nm b = Ok t -> sub (rtnames t) (oroot nm ++ rtnames a ++ rtnames b).

Lemma empty_names t : @rt_empty E M RM = Ok t -> rtnames t = [].
Proof. unfold rt_empty, mk_raz_tree. intros H. apply bind_Ok in H. destruct H as (m & _ & Z). now inv Z. Qed.

Lemma reverse_bin_replay : bin_replayed (u_reverse_bin inner) reverse_bin.
Proof.
  intros st tab lv nm ha hb h st1 tr tab1 lg H. unfold u_reverse_bin in H.
  destruct (u_is_empty ha) eqn:Ea, (u_is_empty hb) eqn:Eb.
  - destruct (mk_replay eqD _ _ _ _ _ _ _ _ H) as (_ & -> & -> & P). split; [reflexivity|]. split; [reflexivity|].
    intros st2 a b t Q Ra Rb Z. unfold reverse_bin in Z. rewrite <- (empty_rep _ _ _ Ra), <- (empty_rep _ _ _ Rb), Ea, Eb in Z.
    exact (P st2 None t Q I Z).
  - inv H. split; [reflexivity|]. split; [reflexivity|]. intros st2 a b t Q Ra Rb Z. unfold reverse_bin in Z.
    rewrite <- (empty_rep _ _ _ Ra), <- (empty_rep _ _ _ Rb), Ea, Eb in Z. now inv Z.
  - inv H. split; [reflexivity|]. split; [reflexivity|]. intros st2 a b t Q Ra Rb Z. unfold reverse_bin in Z.
    rewrite <- (empty_rep _ _ _ Ra), <- (empty_rep _ _ _ Rb), Ea, Eb in Z. now inv Z.
  - apply u_bind_Ok in H. destruct H as (o & st2 & tr2 & tab2 & lg2 & tr3 & lg3 & H1 & H & -> & ->).
    destruct o as [h'|]; [|discriminate]. inv H. destruct (join_replay eqD _ _ _ _ _ _ _ _ _ _ _ H1) as (-> & -> & P).
    split; [reflexivity|]. split; [reflexivity|]. intros st3 a b t Q Ra Rb Z. unfold reverse_bin in Z.
    rewrite <- (empty_rep _ _ _ Ra), <- (empty_rep _ _ _ Rb), Ea, Eb in Z.
    apply bind_Ok in Z. destruct Z as (o & Z & Y). destruct o as [t'|]; [|discriminate]. inv Y.
    rewrite held_app in Q. destruct Q as [Q _]. exact (P _ _ _ _ Q Rb Ra Z).
Qed.
Lemma filter_bin_replay : bin_replayed (u_filter_bin inner) filter_bin.
Proof.
  intros st tab lv nm ha hb h st1 tr tab1 lg H. unfold u_filter_bin in H.
  destruct (u_is_empty ha) eqn:Ea, (u_is_empty hb) eqn:Eb.
  - destruct (mk_replay eqD _ _ _ _ _ _ _ _ H) as (_ & -> & -> & P). split; [reflexivity|]. split; [reflexivity|].
    intros st2 a b t Q Ra Rb Z. unfold filter_bin in Z. rewrite <- (empty_rep _ _ _ Ra), <- (empty_rep _ _ _ Rb), Ea, Eb in Z.
    exact (P st2 None t Q I Z).
  - inv H. split; [reflexivity|]. split; [reflexivity|]. intros st2 a b t Q Ra Rb Z. unfold filter_bin in Z.
    rewrite <- (empty_rep _ _ _ Ra), <- (empty_rep _ _ _ Rb), Ea, Eb in Z. now inv Z.
  - inv H. split; [reflexivity|]. split; [reflexivity|]. intros st2 a b t Q Ra Rb Z. unfold filter_bin in Z.
    rewrite <- (empty_rep _ _ _ Ra), <- (empty_rep _ _ _ Rb), Ea, Eb in Z. now inv Z.
  - apply u_bind_Ok in H. destruct H as (o & st2 & tr2 & tab2 & lg2 & tr3 & lg3 & H1 & H & -> & ->).
    destruct o as [h'|]; [|discriminate]. inv H. destruct (join_replay eqD _ _ _ _ _ _ _ _ _ _ _ H1) as (-> & -> & P).
    split; [reflexivity|]. split; [reflexivity|]. intros st3 a b t Q Ra Rb Z. unfold filter_bin in Z.
    rewrite <- (empty_rep _ _ _ Ra), <- (empty_rep _ _ _ Rb), Ea, Eb in Z.
    apply bind_Ok in Z. destruct Z as (o & Z & Y). destruct o as [t'|]; [|discriminate]. inv Y.
    rewrite held_app in Q. destruct Q as [Q _]. exact (P _ _ _ _ Q Ra Rb Z).
Qed.

Lemma reverse_bin_agree : bin_agrees (u_reverse_bin inner) reverse_bin.
Proof.
  intros st tab lv nm ha hb a b t Ra Rb Z Un. unfold u_reverse_bin. unfold reverse_bin in Z.
  rewrite (empty_rep _ _ _ Ra), (empty_rep _ _ _ Rb). destruct (rt_is_empty a), (rt_is_empty b).
  - destruct (mk_agree st tab None None t I Z) as (h & tr & X & R & _). do 3 eexists. split; [exact X|]. split; [exact R|]. apply (upto_sub []); [names|apply upto_refl].
  - inv Z. do 3 eexists. split; [reflexivity|]. split; [assumption|]. apply (upto_sub []); [names|apply upto_refl].
  - inv Z. do 3 eexists. split; [reflexivity|]. split; [assumption|]. apply (upto_sub []); [names|apply upto_refl].
  - apply bind_Ok in Z. destruct Z as (o & Z & Y). destruct o as [t'|]; [|discriminate]. inv Y.
    destruct (join_agree (Nsp := q) st tab hb ha b a lv nm t Rb Ra Z ltac:(names)) as (h & st' & tr & X & R & U).
    rewrite (u_bind_eq _ _ _ _ _ _ _ _ _ X). cbn [u_lift unwrap bind]. eauto 10.
Qed.
Lemma filter_bin_agree : bin_agrees (u_filter_bin inner) filter_bin.
Proof.
  intros st tab lv nm ha hb a b t Ra Rb Z Un. unfold u_filter_bin. unfold filter_bin in Z.
  rewrite (empty_rep _ _ _ Ra), (empty_rep _ _ _ Rb). destruct (rt_is_empty a), (rt_is_empty b).
  - destruct (mk_agree st tab None None t I Z) as (h & tr & X & R & _). do 3 eexists. split; [exact X|]. split; [exact R|]. apply (upto_sub []); [names|apply upto_refl].
  - inv Z. do 3 eexists. split; [reflexivity|]. split; [assumption|]. apply (upto_sub []); [names|apply upto_refl].
  - inv Z. do 3 eexists. split; [reflexivity|]. split; [assumption|]. apply (upto_sub []); [names|apply upto_refl].
  - apply bind_Ok in Z. destruct Z as (o & Z & Y). destruct o as [t'|]; [|discriminate]. inv Y.
    destruct (join_agree (Nsp := q) st tab ha hb a b lv nm t Ra Rb Z ltac:(names)) as (h & st' & tr & X & R & U).
    rewrite (u_bind_eq _ _ _ _ _ _ _ _ _ X). cbn [u_lift unwrap bind]. eauto 10.
Qed.

Lemma reverse_bin_names : bin_named reverse_bin.
Proof.
  intros a lv nm b t Z. unfold reverse_bin in Z. destruct (rt_is_empty a), (rt_is_empty b).
  - rewrite (empty_names _ Z). names.
  - inv Z. names.
  - inv Z. names.
  - apply bind_Ok in Z. destruct Z as (o & Z & Y). destruct o as [t'|]; [|discriminate]. inv Y. rewrite (join_names _ _ _ _ _ Z). names.
Qed.
Lemma filter_bin_names : bin_named filter_bin.
Proof.
  intros a lv nm b t Z. unfold filter_bin in Z. destruct (rt_is_empty a), (rt_is_empty b).
  - rewrite (empty_names _ Z). names.
  - inv Z. names.
  - inv Z. names.
  - apply bind_Ok in Z. destruct Z as (o & Z & Y). destruct o as [t'|]; [|discriminate]. inv Y. rewrite (join_names _ _ _ _ _ Z). names.
Qed.

(** The whole fold, for any way to treat vectors and any combining closure as above. *)
Variable g : list E -> list E.
Variable ub : sraz_tree E M -> level -> option name -> sraz_tree E M -> um (level * list E) rdata (stree rdata) (sraz_tree E M) (sraz_tree E M).
Variable pb : raz_tree E M -> level -> option name -> raz_tree E M -> res (raz_tree E M).
Hypothesis ub_replay : bin_replayed ub pb.
Hypothesis ub_agree : bin_agrees ub pb.
Hypothesis pb_names : bin_named pb.

Definition pf (l : option (raz_tree E M)) (c : rdata) (lv : level) (n : option name) (r : option (raz_tree E M)) : res (raz_tree E M) :=
  match c with
  | Leaf v => vec_tree (g v)
  | _ =>
      match l, r with
      | None, None => Panic "branch with no data"
      | Some x, None => Ok x
      | None, Some x => Ok x
      | Some x1, Some x2 => pb x1 lv n x2
      end
  end.
Definition sf := u_gauged (fun v => u_vec_tree (g v)) ub.

Notation orel := (orel (@rtrep E M)).
Notation onms := (onms (@rtnames E M)).

Lemma sf_replay st tab d lv nm sl sr v st1 tr tab1 lg : sf sl d lv nm sr st tab = Ok (v, st1, tr, tab1, lg) ->
  tab1 = tab /\ lg = [] /\
  forall st2 l r x, held st2 tr -> orel st2 sl l -> orel st2 sr r -> pf l d lv nm r = Ok x -> rtrep st2 v x.
Proof.
  intros H. unfold sf, u_gauged in H.
  assert (B : match sl, sr with
      | None, None => u_lift (Panic "branch with no data")
      | Some x, None => u_ret x
      | None, Some x => u_ret x
      | Some x1, Some x2 => ub x1 lv nm x2
      end st tab = Ok (v, st1, tr, tab1, lg) -> tab1 = tab /\ lg = [] /\
    forall st2 l r x, held st2 tr -> orel st2 sl l -> orel st2 sr r -> match l, r with
      | None, None => Panic "branch with no data"
      | Some x, None => Ok x
      | None, Some x => Ok x
      | Some x1, Some x2 => pb x1 lv nm x2
      end = Ok x -> rtrep st2 v x).
  { clear H. intros H. destruct sl as [x1|], sr as [x2|]; [| | |discriminate].
    - destruct (ub_replay _ _ _ _ _ _ _ _ _ _ _ H) as (-> & -> & P). split; [reflexivity|]. split; [reflexivity|].
      intros st2 [a|] [b|] x Q Ra Rb Z; try contradiction. exact (P _ _ _ _ Q Ra Rb Z).
    - inv H. split; [reflexivity|]. split; [reflexivity|]. intros st2 [a|] [b|] x Q Ra Rb Z; try contradiction. now inv Z.
    - inv H. split; [reflexivity|]. split; [reflexivity|]. intros st2 [a|] [b|] x Q Ra Rb Z; try contradiction. now inv Z. }
  destruct d as [|cl cr|w]; [exact (B H)|exact (B H)|]. destruct (vec_replay eqD _ _ _ _ _ _ _ _ H) as (-> & -> & P).
  split; [reflexivity|]. split; [reflexivity|]. intros st2 l r x Q _ _ Z. exact (P _ _ Q Z).
Qed.
Lemma sf_agree st tab d lv nm sl sr l r x : orel st sl l -> orel st sr r -> pf l d lv nm r = Ok x ->
  uniq (oroot nm ++ onms l ++ onms r) ->
  exists v st' tr, sf sl d lv nm sr st tab = Ok (v, st', tr, tab, []) /\ rtrep st' v x /\ upto (Nsp := q) (oroot nm) st st'.
Proof.
  intros Rl Rr Z Un. unfold sf, u_gauged.
  assert (B : match l, r with
      | None, None => Panic "branch with no data"
      | Some x, None => Ok x
      | None, Some x => Ok x
      | Some x1, Some x2 => pb x1 lv nm x2
      end = Ok x -> exists v st' tr, match sl, sr with
      | None, None => u_lift (Panic "branch with no data")
      | Some x, None => u_ret x
      | None, Some x => u_ret x
      | Some x1, Some x2 => ub x1 lv nm x2
      end st tab = Ok (v, st', tr, tab, []) /\ rtrep st' v x /\ upto (Nsp := q) (oroot nm) st st').
  { clear Z. intros Z. destruct sl as [x1|], l as [a|]; try contradiction; destruct sr as [x2|], r as [b|]; try contradiction; [| | |discriminate].
    - exact (ub_agree _ _ _ _ _ _ _ _ _ Rl Rr Z Un).
    - inv Z. do 3 eexists. split; [reflexivity|]. split; [assumption|]. apply (upto_sub []); [names|apply upto_refl].
    - inv Z. do 3 eexists. split; [reflexivity|]. split; [assumption|]. apply (upto_sub []); [names|apply upto_refl]. }
  destruct d as [|cl cr|w]; [exact (B Z)|exact (B Z)|]. destruct (vec_agree (Nsp := Nsp) st tab _ _ Z) as (h & tr & X & R).
  do 3 eexists. split; [exact X|]. split; [exact R|]. apply (upto_sub []); [names|apply upto_refl].
Qed.
Lemma pf_names l d lv nm r x : pf l d lv nm r = Ok x -> sub (rtnames x) (oroot nm ++ onms l ++ onms r).
Proof.
  unfold pf. intros Z. assert (B : match l, r with
      | None, None => Panic "branch with no data"
      | Some x, None => Ok x
      | None, Some x => Ok x
      | Some x1, Some x2 => pb x1 lv nm x2
      end = Ok x -> sub (rtnames x) (oroot nm ++ onms l ++ onms r)).
  { clear Z. destruct l as [a|], r as [b|]; intros Z; [exact (pb_names _ _ _ _ _ Z)| | |discriminate]; inv Z; cbn [BuildIncProofs.onms]; names. }
  destruct d as [|cl cr|w]; [exact (B Z)|exact (B Z)|]. rewrite (vec_names _ _ Z). names.
Qed.

Definition fsound : rtab -> Prop := bsound eqD (@rtrep E M) pf.
Lemma fsound_none : fsound no_entries.
Proof. apply bsound_none. Qed.
Lemma gauged_sound k h st tab v st' tr tab' lg : fsound tab ->
  u_rt_fold_up_gauged eqD k (fun v => u_vec_tree (g v)) ub h st tab = Ok (v, st', tr, tab', lg) -> fsound tab'.
Proof.
  intros Sd H. unfold u_rt_fold_up_gauged in H. destruct (srt_tree h) as [s|]; [|now inv H].
  apply u_bind_Ok in H. destruct H as (x & st1 & tr1 & tab1 & lg1 & tr2 & lg2 & H & Z & -> & ->). inv Z.
  exact (proj1 (fold_sound eqD (@rtrep E M) pf sf sf_replay k s st tab x st' tr1 tab' lg1 Sd H)).
Qed.
Lemma gauged_total k h t o st tab : fsound tab -> rtrep st h t -> uniq (rtnames t) ->
  rt_fold_up_gauged t (fun v => vec_tree (g v)) pb = Ok o ->
  match rt_tree t with None => 0 | Some x => t_size x end <= k ->
  exists oh st' tr tab' lg, u_rt_fold_up_gauged eqD k (fun v => u_vec_tree (g v)) ub h st tab = Ok (oh, st', tr, tab', lg) /\
    orel st' oh o /\ upto (Nsp := q) (rtnames t) st st'.
Proof.
  intros Sd [_ R] Nd H K. unfold u_rt_fold_up_gauged. unfold rt_fold_up_gauged in H. unfold rtnames in *.
  destruct (srt_tree h) as [s|], (rt_tree t) as [tr|]; try contradiction.
  - apply bind_Ok in H. destruct H as (x & H & Z). inv Z. cbn [otnames] in *.
    destruct (fold_total eqD q (@rtrep E M) (@rtnames E M) (@rtrep_frame E M q) pf sf sf_replay sf_agree pf_names
      tr x H Nd k st s tab K R Sd) as (v & st' & tr1 & tab' & lg & X & Rv & U).
    rewrite (u_bind_eq _ _ _ _ _ _ _ _ _ X). cbn [u_ret bind]. do 5 eexists. split; [reflexivity|]. split; [exact Rv|exact U].
  - inv H. do 5 eexists. split; [reflexivity|]. split; [exact I|]. apply upto_refl.
Qed.
End Build.

(** ** The examples *)
Section Examples.
Context {E M : Type} {RM : RazMeta E M} (eqD : forall x y : tree_data E M, {x = y} + {x <> y}) {Nsp : here}.
Notation rdata := (tree_data E M).
Notation rstore := (store (level * list E) rdata).

Definition made (inner : name) (run : nat -> sraz_tree E M -> um (level * list E) rdata (stree rdata) (sraz_tree E M) (option (sraz_tree E M)))
    (t t' : raz_tree E M) : Prop :=
  exists k0, forall k hist tab st h, k0 <= k -> ran run hist tab -> tree_reads st h t ->
  exists h' st' tr tab' lg, run k h st tab = Ok (Some h', st', tr, tab', lg) /\ tree_reads st' h' t' /\
    (forall b, fst b <> inner :: path \/ ~ In (snd b) (node_names t) -> st' b = st b) /\
    (tree_reads (without (inner :: path) st) h t -> tree_reads st' h t).

Lemma gauged_made inner g ub pb t t' : bin_replayed eqD ub pb -> bin_agrees (Nsp := Nsp) inner ub pb -> bin_named pb ->
  rt_fold_up_gauged t (fun v => vec_tree (g v)) pb = Ok (Some t') -> NoDup (node_names t) ->
  made inner (fun k => u_rt_fold_up_gauged eqD k (fun v => u_vec_tree (g v)) ub) t t'.
Proof.
  intros Hr Ha Hn H Nd. exists (match rt_tree t with None => 0 | Some x => t_size x end). intros k hist tab st h Hk Hs R.
  assert (Sd : fsound eqD g pb tab).
  { induction Hs as [|hh tab k1 st1 x y st' tr tab' lg _ IH G]; [apply fsound_none|]. exact (gauged_sound eqD g ub pb Hr _ _ _ _ _ _ _ _ _ IH G). }
  destruct (gauged_total eqD inner g ub pb Hr Ha Hn k h t (Some t') st tab Sd (proj1 (tree_reads_rep _ _ _) R) (names_uniq _ Nd) H Hk)
    as (oh & st' & tr & tab' & lg & X & Y & U). destruct oh as [h'|]; [|contradiction].
  exists h', st', tr, tab', lg. split; [exact X|]. split; [now apply tree_reads_rep|]. split; [exact (names_upto (Nsp := inner :: path) _ _ _ U)|].
  intros W. apply (tree_reads_below (without (inner :: path) st)); [|exact W].
  intros b c. unfold without. destruct (list_eq_dec name_eq_dec (fst b) (inner :: path)) as [e|D]; [discriminate|].
  intros Hb. rewrite U by auto. exact Hb.
Qed.

Theorem next_reverse free (t : raz_tree E M) : tree_reached free t -> contents t <> [] -> NoDup (node_names t) ->
  exists t', tree_reached true t' /\ contents t' = rev (contents t) /\ made (NStr "reverse") (u_reverse eqD) t t'.
Proof.
  intros Re Ne Nd. destruct (reverse_ok free t Re Ne) as (t' & H & Re' & C). exists t'. split; [exact Re'|]. split; [exact C|].
  exact (gauged_made (NStr "reverse") (@rev E) _ reverse_bin t t' (reverse_bin_replay eqD _) (reverse_bin_agree _) reverse_bin_names H Nd).
Qed.
Theorem next_filter free p (t : raz_tree E M) : tree_reached free t -> contents t <> [] -> NoDup (node_names t) ->
  exists t', tree_reached true t' /\ elts (contents t') = filter p (elts (contents t)) /\
    (free = false -> contents t' = filtered p (contents t)) /\ made (NStr "filter") (u_filter eqD p) t t'.
Proof.
  intros Re Ne Nd. destruct (filter_elts_ok free p t Re Ne) as (t' & H & Re' & C). exists t'. split; [exact Re'|]. split; [exact C|].
  split; [|exact (gauged_made (NStr "filter") (filter p) _ filter_bin t t' (filter_bin_replay eqD _) (filter_bin_agree _) filter_bin_names H Nd)].
  intros ->. destruct (filter_ok p t Re Ne) as (t2 & H2 & _ & C2). rewrite H in H2. now inv H2.
Qed.
End Examples.

Section Reads.
Context {T A : Type}.
Implicit Types (st : store T A).
Lemma rep_one st t : forall s u, rep st s t -> rep st s u -> t = u.
Proof.
  induction t as [lv nm d l r IHl IHr] using tree_induction. intros s [lv' nm' d' l' r'] H H'. apply rep_eq in H, H'.
  cbn [t_level t_name t_peek t_left t_right] in *. destruct H as (E1 & E2 & sl & sr & Lk & Rl & Rr), H' as (E1' & E2' & sl' & sr' & Lk' & Rl' & Rr').
  rewrite Lk in Lk'. injection Lk' as <- <- <-.
  assert (G : forall so o o', optP (fun t => forall s u, rep st s t -> rep st s u -> t = u) o -> orep st so o -> orep st so o' -> o = o').
  { intros [x|] [a|] [b|] I Ra Rb; try contradiction; auto. cbn [orep optP] in *. f_equal. eauto. }
  rewrite (G _ _ _ IHl Rl Rl'), (G _ _ _ IHr Rr Rr'). congruence.
Qed.
Lemma read_here k s st t st' : st_read k s st = Ok (t, st') -> st_read k s st = Ok (t, st).
Proof. intros H. now destruct (read_rep _ _ _ _ _ H) as [-> _]. Qed.
Lemma reads_one st s t u : reads st s t -> reads st s u -> t = u.
Proof. intros [k H] [k' H']. exact (rep_one st t s u (proj2 (read_rep _ _ _ _ _ H)) (proj2 (read_rep _ _ _ _ _ H'))). Qed.
End Reads.
