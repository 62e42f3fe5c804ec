(** * Memoised tree_to_list over stores answers as from scratch. *)

From Verif Require Import Base BaseFacts Spec SpecRaz StackModel AStackModel LevelTreeModel TreeSpec TreeProofs TreeCursorModel RazMetaModel RazModel RazView RazProofs
  RazScripts RazReach MemoModel MemoSpec StoreModel StoreSpec StoreScripts StoreProofs StoreRaz StoreHistory IncModel IncSpec IncProofs AccumModel ExampleModel
  BuildIncProofs StoreNs StoreMapProofs ListIncModel ListIncSpec.

(** ** The engine *)
Section Engine.
Context {T A C : Type} (eqA : forall x y : A, {x = y} + {x <> y}) (eqC : forall x y : C, {x = y} + {x <> y}).
Notation wcells := (wcells C).
Implicit Types (cs : wcells) (st : store T A) (W : list (loc * C)).

Definition walike cs cs' : Prop := forall a, cs a = cs' a.
Definition puts cs W : wcells := fold_left (fun cs x => w_write cs (fst x) (snd x)) W cs.
Definition chold cs W : Prop := forall x, In x W -> cs (fst x) = Some (snd x).
Definition wheld st cs (tr : list (wseen A C)) : Prop := forallb (wholds eqA eqC st cs) tr = true.
Definition cellseen (x : loc * C) : wseen A C := WCell (fst x) (snd x).

Lemma w_write_same cs a c : w_write cs a c a = Some c.
Proof. unfold w_write. now destruct (loc_eq_dec a a). Qed.
Lemma w_write_other cs a c b : b <> a -> w_write cs a c b = cs b.
Proof. unfold w_write. now destruct (loc_eq_dec b a). Qed.
Lemma w_write_alike cs cs' a c : walike cs cs' -> walike (w_write cs a c) (w_write cs' a c).
Proof. intros H b. unfold w_write. destruct (loc_eq_dec b a); auto. Qed.
Lemma puts_alike W : forall cs cs', walike cs cs' -> walike (puts cs W) (puts cs' W).
Proof. induction W as [|x W IH]; intros cs cs' H; [exact H|]. apply IH. now apply w_write_alike. Qed.
Lemma puts_app W W' cs : puts cs (W ++ W') = puts (puts cs W) W'.
Proof. apply fold_left_app. Qed.
Lemma puts_other W : forall cs b, (forall x, In x W -> fst x <> b) -> puts cs W b = cs b.
Proof.
  induction W as [|x W IH]; intros cs b H; [reflexivity|]. cbn [puts fold_left]. fold (puts (w_write cs (fst x) (snd x)) W).
  rewrite IH by (intros y I; apply H; now right). apply w_write_other. intros Q. apply (H x (or_introl eq_refl)). auto.
Qed.
Lemma chold_app cs W W' : chold cs (W ++ W') <-> chold cs W /\ chold cs W'.
Proof.
  unfold chold. split; [intros H; split; intros x I; apply H, in_or_app; auto|].
  intros [H H'] x I. apply in_app_or in I. destruct I; auto.
Qed.
Lemma chold_alike cs cs' W : walike cs cs' -> chold cs W -> chold cs' W.
Proof. intros H Q x I. rewrite <- H. auto. Qed.
Lemma chold_incl cs W W' : incl W' W -> chold cs W -> chold cs W'.
Proof. intros H Q x I. auto. Qed.
Lemma puts_hold W : forall cs, chold cs W -> walike (puts cs W) cs.
Proof.
  induction W as [|x W IH]; intros cs H; [intros a; reflexivity|]. cbn [puts fold_left]. fold (puts (w_write cs (fst x) (snd x)) W).
  assert (Q : walike (w_write cs (fst x) (snd x)) cs).
  { intros b. unfold w_write. destruct (loc_eq_dec b (fst x)) as [->|]; [|reflexivity]. symmetry. apply H. now left. }
  intros b. rewrite (puts_alike W _ _ Q b). apply IH. intros y I. apply H. now right.
Qed.
Lemma wheld_app st cs tr tr' : wheld st cs (tr ++ tr') <-> wheld st cs tr /\ wheld st cs tr'.
Proof. unfold wheld. rewrite forallb_app, andb_true_iff. reflexivity. Qed.
Lemma wheld_nil st cs : wheld st cs [].
Proof. reflexivity. Qed.
Lemma wheld_cells st cs W : wheld st cs (map cellseen W) <-> chold cs W.
Proof.
  unfold wheld. rewrite forallb_forall. split.
  - intros H x I. specialize (H (cellseen x) (in_map _ _ _ I)). cbn [cellseen wholds] in H.
    destruct (cs (fst x)) as [c|]; [|discriminate]. destruct (eqC (snd x) c); [congruence|discriminate].
  - intros H y I. apply in_map_iff in I. destruct I as (x & <- & I). cbn [cellseen wholds]. rewrite (H x I).
    destruct (eqC (snd x) (snd x)); [reflexivity|congruence].
Qed.
Lemma wheld_node st cs a x : wheld st cs [WNode (a, x)] <-> tree_look st (TCell 0%N a) = Some x.
Proof. unfold wheld. cbn [forallb wholds]. rewrite andb_true_r. apply holds_eq. Qed.

Lemma w_bind_eq {X R Y Z} (m : wm T A C X R Y) (f : Y -> wm T A C X R Z) st cs tab y cs1 s1 tab1 lg1 :
  m st cs tab = Ok (y, cs1, s1, tab1, lg1) ->
  w_bind m f st cs tab = do ' (z, cs2, s2, tab2, lg2) <- f y st cs1 tab1; Ok (z, cs2, s1 ++ s2, tab2, lg1 ++ lg2).
Proof. intros H. unfold w_bind. now rewrite H. Qed.
Lemma w_bind_Ok {X R Y Z} (m : wm T A C X R Y) (f : Y -> wm T A C X R Z) st cs tab z cs2 s tab2 lg :
  w_bind m f st cs tab = Ok (z, cs2, s, tab2, lg) ->
  exists y cs1 s1 tab1 lg1 s2 lg2, m st cs tab = Ok (y, cs1, s1, tab1, lg1) /\ f y st cs1 tab1 = Ok (z, cs2, s2, tab2, lg2) /\
    s = s1 ++ s2 /\ lg = lg1 ++ lg2.
Proof.
  unfold w_bind. intros H. apply bind_Ok in H. destruct H as ([[[[y cs1] s1] tab1] lg1] & H & H').
  apply bind_Ok in H'. destruct H' as ([[[[z' cs2'] s2] tab2'] lg2] & H' & Q). inv Q. eauto 12.
Qed.
Lemma look_level st lv lv' a : tree_look st (TCell lv a) = tree_look st (@TCell A lv' a).
Proof. reflexivity. Qed.
End Engine.

(** ** The fold *)
Section Fold.
Context {T A C R : Type} (eqA : forall x y : A, {x = y} + {x <> y}) (eqC : forall x y : C, {x = y} + {x <> y})
  (eqR : forall x y : R, {x = y} + {x <> y}) {Nsp : here}.
Notation wcells := (wcells C).
Notation wm := (wm T A C (stree A * option name * R) R).
Notation tab := (wtab A C (stree A * option name * R) R).
(** The function at the nodes, with the cells it writes. *)
Context (fn : R -> A -> level -> option name -> R * list (loc * C)) (node : R -> A -> level -> option name -> wm R).
Hypothesis node_eq : forall a d l n st cs tb,
  node a d l n st cs tb = Ok (fst (fn a d l n), puts cs (snd (fn a d l n)), map cellseen (snd (fn a d l n)), tb, []).
Definition plain a d l n : R := fst (fn a d l n).
Notation pure := (t_fold_lr_meta plain).
Notation wheld := (wheld eqA eqC).

Fixpoint writes (t : tree A) (s : option name) (a : R) : list (loc * C) :=
  match t with
  | Node lv nm d l r =>
      match l, r with
      | None, None => snd (fn a d lv s)
      | _, _ =>
          let a1 := match l with None => a | Some t1 => pure t1 s a end in
          match l with None => [] | Some t1 => writes t1 s a end
          ++ snd (fn a1 d lv nm)
          ++ match r with None => [] | Some t2 => writes t2 nm (plain a1 d lv nm) end
      end
  end.
Definition opure (o : option (tree A)) s a : R := match o with None => a | Some t => pure t s a end.
Definition owrites (o : option (tree A)) s a : list (loc * C) := match o with None => [] | Some t => writes t s a end.
Lemma pure_branch lv nm d l r s a : l <> None \/ r <> None ->
  pure (Node lv nm d l r) s a = opure r nm (plain (opure l s a) d lv nm).
Proof. destruct l, r; intros [H|H]; try congruence; reflexivity. Qed.
Lemma writes_branch lv nm d l r s a : l <> None \/ r <> None ->
  writes (Node lv nm d l r) s a = owrites l s a ++ snd (fn (opure l s a) d lv nm) ++ owrites r nm (plain (opure l s a) d lv nm).
Proof. destruct l, r; intros [H|H]; try congruence; reflexivity. Qed.

(** An entry: what it knows, if it is still so, determines the tree and the cells written. *)
Definition entry_ok (e : wentry A C (stree A * option name * R) R) : Prop :=
  let '(h, s, a) := we_arg e in
  exists t, we_res e = pure t s a /\
    forall (st : store T A) cs, wheld st cs (we_seen e) -> StoreProofs.rep st h t /\ chold cs (writes t s a).
Definition wsound (tb : tab) : Prop := forall n e, tb n = Some e -> entry_ok e.
Definition done (h : stree A) (t : tree A) s a cs (m : res (R * wcells * list (wseen A C) * tab * list (stree A))) : Prop :=
  exists cs' tr tb' lg, m = Ok (pure t s a, cs', tr, tb', lg) /\ wsound tb' /\ walike cs' (puts cs (writes t s a)) /\
    (forall (st2 : store T A) cs2, wheld st2 cs2 tr -> StoreProofs.rep st2 h t /\ chold cs2 (writes t s a)).

Lemma call_done n (st : store T A) h t s a cs (tb : tab) (body : wm R) : StoreProofs.rep st h t -> wsound tb ->
  done h t s a cs (body st cs tb) ->
  done h t s a cs (w_memo_opt eqA eqC (slr_same eqA eqR) n (h, s, a) body st cs tb).
Proof.
  intros Rp Sd D. destruct n as [n|]; [|exact D]. cbn [w_memo_opt]. unfold w_memo.
  assert (Rr : done h t s a cs (do ' (r, cs', s0, tab', lg) <- body st cs tb;
      Ok (r, cs', s0, w_set tab' (path, n) (WEntry (h, s, a) s0 r), lg))).
  { destruct D as (cs' & tr & tb' & lg & -> & S' & Al & Q). cbn [bind]. exists cs', tr. eexists _, lg. split; [reflexivity|].
    split; [|split; [exact Al|exact Q]]. intros m e. unfold w_set. destruct (loc_eq_dec m (path, n)); [|apply S'].
    intros Z. inv Z. exists t. cbn [we_res we_seen]. auto. }
  destruct (tb (path, n)) as [e|] eqn:Et; [|exact Rr].
  destruct (slr_same eqA eqR (h, s, a) (we_arg e) && forallb (wholds eqA eqC st cs) (we_seen e)) eqn:Q; [|exact Rr].
  apply andb_true_iff in Q. destruct Q as [Q1 Q2]. apply slr_same_eq in Q1.
  pose proof (Sd _ _ Et) as Eo. unfold entry_ok in Eo. rewrite <- Q1 in Eo. destruct Eo as (t0 & Er & Es).
  destruct (Es st cs Q2) as [R0 H0]. pose proof (rep_one st t h t0 Rp R0). subst t0.
  exists cs, (we_seen e), tb, []. rewrite Er. split; [reflexivity|]. split; [exact Sd|]. split; [|exact Es].
  intros b. symmetry. now apply puts_hold.
Qed.

Lemma rep_back (st : store T A) h lv nm d l r sl sr : st_level h = lv -> st_name h = nm -> tree_look st h = Some (d, sl, sr) ->
  orep st sl l -> orep st sr r -> StoreProofs.rep st h (Node lv nm d l r).
Proof. intros H1 H2 H3 H4 H5. apply rep_eq. cbn [t_level t_name t_peek t_left t_right]. eauto 10. Qed.
Lemma force_look (st : store T A) h x cs (tb : tab) : tree_look st h = Some x ->
  exists tr, w_force h st cs tb = Ok (x, cs, tr, tb, []) /\ forall (st2 : store T A) cs2, wheld st2 cs2 tr -> tree_look st2 h = Some x.
Proof.
  intros H. unfold w_force. rewrite H. cbn [unwrap bind]. eexists. split; [reflexivity|]. intros st2 cs2 Q.
  destruct h as [lv d l r|lv a]; [exact H|]. apply wheld_node in Q. exact Q.
Qed.

Lemma fold_done k : forall (st : store T A) h t s a cs tb, StoreProofs.rep st h t -> t_size t <= k -> wsound tb ->
  done h t s a cs (w_fold_lr_meta eqA eqC eqR k node h s a st cs tb).
Proof.
  induction k as [|k IH]; intros st h t s a cs tb Rp Sz Sd; [destruct t; simpl in Sz; lia|].
  destruct t as [lv nm d l r]. pose proof Rp as Rp'. apply rep_eq in Rp'. cbn [t_level t_name t_peek t_left t_right] in Rp'.
  destruct Rp' as (El & En & sl & sr & Lk & Rl & Rr).
  cbn [w_fold_lr_meta]. rewrite (w_bind_eq (w_enter h) _ st cs tb tt cs [] tb [h]) by reflexivity.
  destruct (force_look st h _ cs tb Lk) as (tr0 & F0 & K0). rewrite (w_bind_eq _ _ _ _ _ _ _ _ _ _ F0).
  rewrite El, En.
  assert (Child : forall n o so s a cs (tb : tab), orep st so o -> match o with None => 0 | Some t => t_size t end <= k -> wsound tb ->
    exists cs' tr tb' lg,
      match so with
      | None => w_ret a
      | Some t1 => w_memo_opt eqA eqC (slr_same eqA eqR) n (t1, s, a) (w_fold_lr_meta eqA eqC eqR k node t1 s a)
      end st cs tb = Ok (opure o s a, cs', tr, tb', lg) /\ wsound tb' /\ walike cs' (puts cs (owrites o s a)) /\
      (forall (st2 : store T A) cs2, wheld st2 cs2 tr -> orep st2 so o /\ chold cs2 (owrites o s a))).
  { intros n o so s1 a1 cs1 tb1 Ro So S1. destruct so as [h1|], o as [t1|]; try contradiction; cbn [opure owrites].
    - exact (call_done n st h1 t1 s1 a1 cs1 tb1 (w_fold_lr_meta eqA eqC eqR k node h1 s1 a1) Ro S1 (IH st h1 t1 s1 a1 cs1 tb1 Ro So S1)).
    - exists cs1, [], tb1, []. split; [reflexivity|]. split; [exact S1|]. split; [intros b; reflexivity|].
      intros st2 cs2 _. split; [exact I|intros x []]. }
  assert (Br : l <> None \/ r <> None ->
    (match sl, sr with None, None => False | _, _ => True end) /\
    exists cs' tr tb' lg,
      (wop a1 <- match sl with
                 | None => w_ret a
                 | Some t1 => w_memo_opt eqA eqC (slr_same eqA eqR) (fork_left nm) (t1, s, a) (w_fold_lr_meta eqA eqC eqR k node t1 s a)
                 end;
       wop a2 <- node a1 d lv nm;
       match sr with
       | None => w_ret a2
       | Some t2 => w_memo_opt eqA eqC (slr_same eqA eqR) (fork_right nm) (t2, nm, a2) (w_fold_lr_meta eqA eqC eqR k node t2 nm a2)
       end) st cs tb = Ok (pure (Node lv nm d l r) s a, cs', tr, tb', lg) /\ wsound tb' /\
      walike cs' (puts cs (writes (Node lv nm d l r) s a)) /\
      (forall (st2 : store T A) cs2, wheld st2 cs2 tr -> orep st2 sl l /\ orep st2 sr r /\ chold cs2 (writes (Node lv nm d l r) s a))).
  { intros Ne. split; [destruct sl, sr, l, r; try contradiction; destruct Ne; try congruence; exact I|].
    rewrite (pure_branch _ _ _ _ _ _ _ Ne), (writes_branch _ _ _ _ _ _ _ Ne).
    assert (Sl : match l with None => 0 | Some t => t_size t end <= k /\ match r with None => 0 | Some t => t_size t end <= k) by (simpl in Sz; lia).
    destruct (Child (fork_left nm) l sl s a cs tb Rl (proj1 Sl) Sd) as (cs1 & tr1 & tb1 & lg1 & F1 & S1 & A1 & K1).
    rewrite (w_bind_eq _ _ _ _ _ _ _ _ _ _ F1). rewrite (w_bind_eq _ _ _ _ _ _ _ _ _ _ (node_eq (opure l s a) d lv nm st cs1 tb1)).
    destruct (Child (fork_right nm) r sr nm (plain (opure l s a) d lv nm) (puts cs1 (snd (fn (opure l s a) d lv nm))) tb1 Rr (proj2 Sl) S1)
      as (cs2 & tr2 & tb2 & lg2 & F2 & S2 & A2 & K2).
    fold (plain (opure l s a) d lv nm). rewrite F2. cbn [bind]. do 4 eexists. split; [reflexivity|]. split; [exact S2|]. split.
    - intros b. rewrite !puts_app, A2. apply puts_alike, puts_alike. exact A1.
    - intros st2 c2. rewrite !wheld_app, wheld_cells, !chold_app. intros (Q1 & Q2 & Q3).
      destruct (K1 _ _ Q1), (K2 _ _ Q3). auto. }
  destruct l as [tl|] eqn:Ll; [|destruct r as [tr|] eqn:Lr].
  1: destruct Br as [B1 (cs' & tr1 & tb' & lg & B2 & B3 & B4 & B5)]; [left; congruence|].
  2: destruct Br as [B1 (cs' & tr1 & tb' & lg & B2 & B3 & B4 & B5)]; [right; congruence|].
  1,2: assert (B2' : match sl, sr with
      | None, None => node a d lv s
      | _, _ => (wop a1 <- match sl with
                 | None => w_ret a
                 | Some t1 => w_memo_opt eqA eqC (slr_same eqA eqR) (fork_left nm) (t1, s, a) (w_fold_lr_meta eqA eqC eqR k node t1 s a)
                 end;
       wop a2 <- node a1 d lv nm;
       match sr with
       | None => w_ret a2
       | Some t2 => w_memo_opt eqA eqC (slr_same eqA eqR) (fork_right nm) (t2, nm, a2) (w_fold_lr_meta eqA eqC eqR k node t2 nm a2)
       end) end st cs tb = Ok (pure (Node lv nm d l r) s a, cs', tr1, tb', lg)) by (subst l r || subst l; destruct sl, sr; auto; contradiction).
  1,2: subst l; try subst r; rewrite B2'; cbn [bind]; do 4 eexists; split; [reflexivity|]; split; [exact B3|]; split; [exact B4|];
    intros st2 cs2; cbn [app]; rewrite wheld_app; intros [Q1 Q2]; destruct (B5 _ _ Q2) as (Q3 & Q4 & Q5);
    split; [exact (rep_back _ _ _ _ _ _ _ _ _ El En (K0 _ _ Q1) Q3 Q4)|exact Q5].
  destruct sl, sr; try contradiction. rewrite node_eq. cbn [bind]. do 4 eexists. split; [reflexivity|]. split; [exact Sd|].
  split; [intros b; reflexivity|]. intros st2 cs2. cbn [app]. rewrite wheld_app, wheld_cells. intros [Q1 Q2].
  split; [exact (rep_back st2 h _ _ _ None None None None El En (K0 _ _ Q1) Rl Rr)|exact Q2].
Qed.
(** A run that answers has found a tree. *)
Definition found (st : store T A) h s a cs m : Prop := exists t, StoreProofs.rep st h t /\ done h t s a cs m.
Lemma call_found n (st : store T A) h s a cs (tb : tab) (body : wm R) o : wsound tb ->
  (forall o, body st cs tb = Ok o -> found st h s a cs (Ok o)) ->
  w_memo_opt eqA eqC (slr_same eqA eqR) n (h, s, a) body st cs tb = Ok o -> found st h s a cs (Ok o).
Proof.
  intros Sd B H. destruct n as [n|]; [|exact (B _ H)]. cbn [w_memo_opt] in H. unfold w_memo in H.
  assert (Rr : (do ' (r, cs', s0, tab', lg) <- body st cs tb; Ok (r, cs', s0, w_set tab' (path, n) (WEntry (h, s, a) s0 r), lg)) = Ok o ->
    found st h s a cs (Ok o)).
  { intros Q. apply bind_Ok in Q. destruct Q as ([[[[r cs'] s0] tab'] lg] & Q & Z). inv Z. destruct (B _ Q) as (t & R' & D).
    exists t. split; [exact R'|]. destruct D as (cs1 & tr & tb' & lg1 & Z & S' & Al & K). inv Z.
    do 4 eexists. split; [reflexivity|]. split; [|split; [exact Al|exact K]]. intros m e. unfold w_set.
    destruct (loc_eq_dec m (path, n)); [|apply S']. intros Z. inv Z. exists t. cbn [we_res we_seen]. auto. }
  destruct (tb (path, n)) as [e|] eqn:Et; [|exact (Rr H)].
  destruct (slr_same eqA eqR (h, s, a) (we_arg e) && forallb (wholds eqA eqC st cs) (we_seen e)) eqn:Q; [|exact (Rr H)].
  apply andb_true_iff in Q. destruct Q as [Q1 Q2]. apply slr_same_eq in Q1.
  pose proof (Sd _ _ Et) as Eo. unfold entry_ok in Eo. rewrite <- Q1 in Eo. destruct Eo as (t & Er & Es).
  destruct (Es st cs Q2) as [R0 H0]. inv H. exists t. split; [exact R0|].
  exists cs, (we_seen e), tb, []. rewrite Er. split; [reflexivity|]. split; [exact Sd|]. split; [|exact Es].
  intros b. symmetry. now apply puts_hold.
Qed.
Lemma fold_found k : forall (st : store T A) h s a cs tb o, wsound tb ->
  w_fold_lr_meta eqA eqC eqR k node h s a st cs tb = Ok o -> found st h s a cs (Ok o).
Proof.
  induction k as [|k IH]; intros st h s a cs tb o Sd H; [discriminate|].
  cbn [w_fold_lr_meta] in H. rewrite (w_bind_eq (w_enter h) _ st cs tb tt cs [] tb [h]) in H by reflexivity.
  destruct (tree_look st h) as [[[d sl] sr]|] eqn:Lk; [|unfold w_bind, w_force in H; rewrite Lk in H; discriminate].
  destruct (force_look st h _ cs tb Lk) as (tr0 & F0 & K0). rewrite (w_bind_eq _ _ _ _ _ _ _ _ _ _ F0) in H.
  assert (Child : forall n so s a cs (tb : tab) o, wsound tb ->
      match so with
      | None => w_ret a
      | Some t1 => w_memo_opt eqA eqC (slr_same eqA eqR) n (t1, s, a) (w_fold_lr_meta eqA eqC eqR k node t1 s a)
      end st cs tb = Ok o ->
    exists t cs' tr tb' lg, orep st so t /\ o = (opure t s a, cs', tr, tb', lg) /\ wsound tb' /\ walike cs' (puts cs (owrites t s a)) /\
      (forall (st2 : store T A) cs2, wheld st2 cs2 tr -> orep st2 so t /\ chold cs2 (owrites t s a))).
  { intros n so s1 a1 cs1 tb1 o1 S1 Q. destruct so as [h1|].
    - destruct (call_found n st h1 s1 a1 cs1 tb1 _ o1 S1 (fun o => IH st h1 s1 a1 cs1 tb1 o S1) Q) as (t & R1 & cs' & tr & tb' & lg & Z & X).
      inv Z. exists (Some t). cbn [opure owrites orep]. eauto 10.
    - inv Q. exists None, cs1, [], tb1, []. split; [exact I|]. split; [reflexivity|]. split; [exact S1|]. split; [intros b; reflexivity|].
      intros st2 cs2 _. split; [exact I|intros x []]. }
  assert (Z : (sl = None /\ sr = None) \/ (sl <> None \/ sr <> None)) by (destruct sl, sr; intuition congruence).
  destruct Z as [[-> ->]|Z].
  - rewrite node_eq in H. cbn [bind] in H. inv H. exists (Node (st_level h) (st_name h) d None None).
    split; [exact (rep_back st h _ _ _ None None None None eq_refl eq_refl Lk I I)|].
    do 4 eexists. split; [reflexivity|]. split; [exact Sd|]. split; [intros b; reflexivity|].
    intros st2 cs2. cbn [app]. rewrite wheld_app, wheld_cells. intros [Q1 Q2].
    split; [exact (rep_back st2 h _ _ _ None None None None eq_refl eq_refl (K0 _ _ Q1) I I)|exact Q2].
  - assert (H' : exists o', (wop a1 <- match sl with
                 | None => w_ret a
                 | Some t1 => w_memo_opt eqA eqC (slr_same eqA eqR) (fork_left (st_name h)) (t1, s, a) (w_fold_lr_meta eqA eqC eqR k node t1 s a)
                 end;
       wop a2 <- node a1 d (st_level h) (st_name h);
       match sr with
       | None => w_ret a2
       | Some t2 => w_memo_opt eqA eqC (slr_same eqA eqR) (fork_right (st_name h)) (t2, st_name h, a2) (w_fold_lr_meta eqA eqC eqR k node t2 (st_name h) a2)
       end) st cs tb = Ok o' /\ o = (let '(y, cs', tr, tb', lg) := o' in (y, cs', tr0 ++ tr, tb', h :: lg))).
    { apply bind_Ok in H. destruct H as ([[[[z cs1] s1] tab1] lg1] & H & Q). inv Q. apply bind_Ok in H.
      destruct H as ([[[[z' cs2] s2] tab2] lg2] & H & Q). inv Q. eexists (_, _, _, _, _). split; [|reflexivity].
      destruct sl, sr; auto. destruct Z; congruence. }
    clear H. destruct H' as ([[[[y cs9] tr9] tb9] lg9] & H & ->).
    apply w_bind_Ok in H. destruct H as (a1 & cs1 & tr1 & tb1 & lg1 & tr2 & lg2 & H1 & H & -> & ->).
    destruct (Child _ _ _ _ _ _ _ Sd H1) as (l & cs1' & tr1' & tb1' & lg1' & Rl & Q & S1 & A1 & K1). inv Q.
    rewrite (w_bind_eq _ _ _ _ _ _ _ _ _ _ (node_eq (opure l s a) d _ _ st cs1' tb1')) in H. apply bind_Ok in H.
    destruct H as ([[[[z' cs2] s2] tab2] lg2'] & H & Q). inv Q.
    destruct (Child _ _ _ _ _ _ _ S1 H) as (r & cs2' & tr2' & tb2' & lg2'' & Rr & Q & S2 & A2 & K2). inv Q.
    assert (Ne : l <> None \/ r <> None) by (destruct sl, sr, l, r; try contradiction; destruct Z; try congruence; try (left; discriminate); right; discriminate).
    exists (Node (st_level h) (st_name h) d l r). split; [exact (rep_back _ _ _ _ _ _ _ _ _ eq_refl eq_refl Lk Rl Rr)|].
    unfold done. rewrite (pure_branch _ _ _ _ _ _ _ Ne), (writes_branch _ _ _ _ _ _ _ Ne). do 4 eexists. split; [reflexivity|].
    split; [exact S2|]. split.
    + intros b. rewrite !puts_app, A2. apply puts_alike, puts_alike. exact A1.
    + intros st2 c2. rewrite !wheld_app, wheld_cells, !chold_app. intros (Q1 & Q2 & Q3 & Q4).
      destruct (K1 _ _ Q2), (K2 _ _ Q4). split; [eapply rep_back; eauto|auto].
Qed.
End Fold.

(** ** Where it writes *)
Section Where.
Context {A C R : Type} {Nsp : here} (fn : R -> A -> level -> option name -> R * list (loc * C)).
Notation plain := (plain fn).
Notation writes := (writes fn).
Notation owrites := (owrites fn).
Notation pure := (t_fold_lr_meta plain).
Notation opure := (opure fn).
Implicit Types (cs : wcells C) (t : tree A).
Hypothesis fn_at : forall a d lv n x, In x (snd (fn a d lv n)) -> exists m, n = Some m /\ fst x = (path, m).
Hypothesis fn_one : forall a d lv n cs, chold (puts cs (snd (fn a d lv n))) (snd (fn a d lv n)).

(** Nodes without children write nothing. *)
Fixpoint quiet t : Prop :=
  match t with
  | Node lv nm d l r =>
      match l, r with None, None => forall a s, snd (fn a d lv s) = [] | _, _ => True end /\
      match l with None => True | Some t1 => quiet t1 end /\ match r with None => True | Some t2 => quiet t2 end
  end.
Definition oquiet o : Prop := match o with None => True | Some t => quiet t end.
Definition wupto (L : list name) cs cs' : Prop := forall b, fst b <> path \/ cnt (snd b) L = 0 -> cs' b = cs b.

Lemma writes_at t : quiet t -> forall s a x, In x (writes t s a) -> exists m, In m (tnames t) /\ fst x = (path, m).
Proof.
  induction t as [lv nm d l r IHl IHr] using tree_induction. intros (Q & Ql & Qr) s a x.
  assert (G : forall o s a, optP (fun t => quiet t -> forall s a x, In x (writes t s a) -> exists m, In m (tnames t) /\ fst x = (path, m)) o ->
    oquiet o -> In x (owrites o s a) -> exists m, In m (otnames o) /\ fst x = (path, m)).
  { intros [t|] s0 a0 I Qo; [|intros []]. cbn [optP oquiet otnames ListIncProofs.owrites] in *. now apply I. }
  rewrite tnames_eq. cbn [t_name t_left t_right].
  assert (Z : (l = None /\ r = None) \/ (l <> None \/ r <> None)) by (destruct l, r; intuition congruence).
  destruct Z as [[-> ->]|Z]; [cbn [ListIncProofs.writes]; rewrite Q; intros []|].
  rewrite (writes_branch fn _ _ _ _ _ _ _ Z). rewrite !in_app_iff. intros [I|[I|I]].
  - destruct (G _ _ _ IHl Ql I) as (m & I1 & I2). exists m. rewrite !in_app_iff. auto.
  - destruct (fn_at _ _ _ _ _ I) as (m & -> & I2). exists m. rewrite !in_app_iff. split; [left; now left|exact I2].
  - destruct (G _ _ _ IHr Qr I) as (m & I1 & I2). exists m. rewrite !in_app_iff. auto.
Qed.
Lemma owrites_at o : oquiet o -> forall s a x, In x (owrites o s a) -> exists m, In m (otnames o) /\ fst x = (path, m).
Proof. destruct o as [t|]; [apply writes_at|intros _ s a x []]. Qed.
Lemma puts_upto L W cs : (forall x, In x W -> exists m, In m L /\ fst x = (path, m)) -> wupto L cs (puts cs W).
Proof.
  intros H b D. apply puts_other. intros [y c] I Q. destruct (H _ I) as (m & I1 & I2). cbn [fst snd] in Q, I2. subst. cbn [fst snd] in D.
  apply cnt_In in I1. destruct D; [congruence|lia].
Qed.
Lemma chold_upto L cs cs' W : wupto L cs cs' -> (forall x, In x W -> exists m, cnt m L = 0 /\ fst x = (path, m)) -> chold cs W -> chold cs' W.
Proof.
  intros U H Q [y c] I. destruct (H _ I) as (m & I1 & I2). cbn [fst snd] in *. subst y. rewrite U; [exact (Q _ I)|now right].
Qed.
Lemma wupto_trans L L' cs cs1 cs2 : wupto L cs cs1 -> wupto L' cs1 cs2 -> wupto (L ++ L') cs cs2.
Proof. intros U V b D. rewrite cnt_app in D. rewrite V, U by (destruct D; [now left|right; lia]). reflexivity. Qed.

(** With each name once, all that was written stays. *)
Lemma writes_hold t : quiet t -> uniq (tnames t) -> forall s a cs, chold (puts cs (writes t s a)) (writes t s a).
Proof.
  induction t as [lv nm d l r IHl IHr] using tree_induction. intros (Q & Ql & Qr) Un s a cs.
  rewrite tnames_eq in Un. cbn [t_name t_left t_right] in Un.
  assert (Z : (l = None /\ r = None) \/ (l <> None \/ r <> None)) by (destruct l, r; intuition congruence).
  destruct Z as [[-> ->]|Z]; [cbn [ListIncProofs.writes]; rewrite Q; intros x []|].
  rewrite (writes_branch fn _ _ _ _ _ _ _ Z). rewrite !puts_app, !chold_app.
  set (a1 := opure l s a). set (W1 := owrites l s a). set (W2 := snd (fn a1 d lv nm)). set (W3 := owrites r nm (plain a1 d lv nm)).
  assert (G : forall o s a cs, optP (fun t => quiet t -> uniq (tnames t) -> forall s a cs, chold (puts cs (writes t s a)) (writes t s a)) o ->
    oquiet o -> uniq (otnames o) -> chold (puts cs (owrites o s a)) (owrites o s a)).
  { intros [t|] s0 a0 cs0 I Qo U; [|intros x []]. cbn [optP oquiet otnames ListIncProofs.owrites] in *. now apply I. }
  assert (N : sub (oroot nm ++ otnames l ++ otnames r) (oroot nm ++ otnames l ++ otnames r)) by names.
  assert (U3 : forall cs, wupto (otnames r) cs (puts cs W3)) by (intros; apply puts_upto; now apply owrites_at).
  assert (U2 : forall cs, wupto (oroot nm) cs (puts cs W2)).
  { intros. apply puts_upto. intros x I. destruct (fn_at _ _ _ _ _ I) as (m & -> & I2). exists m. split; [now left|exact I2]. }
  split; [|split].
  - apply (chold_upto (otnames r) (puts (puts cs W1) W2)); [apply U3| |apply (chold_upto (oroot nm) (puts cs W1)); [apply U2| |]].
    + intros x I. destruct (owrites_at _ Ql _ _ _ I) as (m & I1 & I2). exists m. split; [|exact I2].
      apply cnt_In in I1. specialize (Un m). rewrite !cnt_app in Un. lia.
    + intros x I. destruct (owrites_at _ Ql _ _ _ I) as (m & I1 & I2). exists m. split; [|exact I2].
      apply cnt_In in I1. specialize (Un m). rewrite !cnt_app in Un. lia.
    + apply G; [exact IHl|exact Ql|names].
  - apply (chold_upto (otnames r) (puts (puts cs W1) W2)); [apply U3| |apply fn_one].
    intros x I. destruct (fn_at _ _ _ _ _ I) as (m & -> & I2). exists m. split; [|exact I2].
    specialize (Un m). rewrite !cnt_app in Un. assert (cnt m (oroot (Some m)) = 1) by (cbn [oroot cnt count_occ]; destruct (name_eq_dec m m); congruence). lia.
  - apply G; [exact IHr|exact Qr|names].
Qed.

(** ** What the answer reads as *)
Context {P : Type} (rd : wcells C -> R -> P -> Prop) (pf : P -> A -> level -> option name -> P).
Hypothesis rd_step : forall cs a p d lv n, rd cs a p -> chold cs (snd (fn a d lv n)) -> rd cs (plain a d lv n) (pf p d lv n).

Lemma rd_fold t : forall cs s a p, rd cs a p -> chold cs (writes t s a) -> rd cs (pure t s a) (t_fold_lr_meta pf t s p).
Proof.
  induction t as [lv nm d l r IHl IHr] using tree_induction. intros cs s a p Rd H.
  assert (G : forall o s a p, optP (fun t => forall cs s a p, rd cs a p -> chold cs (writes t s a) -> rd cs (pure t s a) (t_fold_lr_meta pf t s p)) o ->
    rd cs a p -> chold cs (owrites o s a) -> rd cs (opure o s a) (match o with None => p | Some t => t_fold_lr_meta pf t s p end)).
  { intros [t|] s0 a0 p0 I R0 H0; cbn [optP ListIncProofs.opure ListIncProofs.owrites] in *; auto. }
  assert (Z : (l = None /\ r = None) \/ (l <> None \/ r <> None)) by (destruct l, r; intuition congruence).
  destruct Z as [[-> ->]|Z]; [now apply rd_step|].
  rewrite (writes_branch fn _ _ _ _ _ _ _ Z), !chold_app in H. destruct H as (H1 & H2 & H3). rewrite (pure_branch fn _ _ _ _ _ _ _ Z).
  assert (Y : t_fold_lr_meta pf (Node lv nm d l r) s p = match r with None => pf (match l with None => p | Some t => t_fold_lr_meta pf t s p end) d lv nm
    | Some t2 => t_fold_lr_meta pf t2 nm (pf (match l with None => p | Some t => t_fold_lr_meta pf t s p end) d lv nm) end)
    by (destruct l, r; destruct Z; try congruence; reflexivity).
  rewrite Y. clear Y.
  pose proof (G l s a p IHl Rd H1) as G1. pose proof (rd_step _ _ _ d lv nm G1 H2) as G2.
  exact (G r nm _ _ IHr G2 H3).
Qed.
End Where.

(** ** tree_to_list *)
Section ToList.
Context {E M C R P : Type} {RM : RazMeta E M} (eqD : forall x y : tree_data E M, {x = y} + {x <> y})
  (eqC : forall x y : C, {x = y} + {x <> y}) (eqR : forall x y : R, {x = y} + {x <> y}) {Nsp : here}.
Notation wm := (wm (level * list E) (tree_data E M) C (stree (tree_data E M) * option name * R) R).
Context (push : R -> E -> R) (archive : R -> level * option name -> wm R) (arc : R -> level * option name -> R * list (loc * C)) (init : R).
Hypothesis archive_eq : forall a m st cs tb,
  archive a m st cs tb = Ok (fst (arc a m), puts cs (snd (arc a m)), map cellseen (snd (arc a m)), tb, []).
Hypothesis arc_at : forall a lv n x, In x (snd (arc a (lv, n))) -> exists m, n = Some m /\ fst x = (path, m).
Hypothesis arc_one : forall a m cs, chold (puts cs (snd (arc a m))) (snd (arc a m)).

Definition lfn (a : R) (d : tree_data E M) (l : level) (n : option name) : R * list (loc * C) :=
  match d with Leaf v => (fold_left push v a, []) | _ => arc a (l, n) end.
Notation node := (w_node push archive).
Notation run := (w_rt_fold_lr_meta eqD eqC eqR push archive init).
Lemma lfn_eq a d l n st cs tb : node a d l n st cs tb = Ok (fst (lfn a d l n), puts cs (snd (lfn a d l n)), map cellseen (snd (lfn a d l n)), tb, []).
Proof. destruct d; [apply archive_eq|apply archive_eq|reflexivity]. Qed.
Lemma lfn_at a d l n x : In x (snd (lfn a d l n)) -> exists m, n = Some m /\ fst x = (path, m).
Proof. destruct d; [apply arc_at|apply arc_at|intros []]. Qed.
Lemma lfn_one a d l n cs : chold (puts cs (snd (lfn a d l n))) (snd (lfn a d l n)).
Proof. destruct d; [apply arc_one|apply arc_one|intros x []]. Qed.
Lemma ok_quiet t : tree_ok t -> quiet lfn t.
Proof.
  induction t as [lv nm d l r IHl IHr] using tree_induction. intros H. apply tree_ok_case in H.
  destruct H as [(v & H & _)|(lv' & nm' & ml & mr & tl & tr & H & _ & _ & _ & Ol & Or)]; inv H; cbn [quiet]; [auto|].
  cbn [optP] in *. auto.
Qed.

Notation sound := (wsound (T := level * list E) eqD eqC lfn).
Definition lpure (t : raz_tree E M) : R :=
  match rt_tree t with None => init | Some tr => t_fold_lr_meta (plain lfn) tr (Some (NStr "start")) init end.
Definition lwrites (t : raz_tree E M) : list (loc * C) := owrites lfn (rt_tree t) (Some (NStr "start")) init.
Lemma run_done k st h t cs tb : tree_reads st h t -> match rt_tree t with None => 0 | Some x => t_size x end <= k -> sound tb ->
  exists cs' tr tb' lg, run k h st cs tb = Ok (lpure t, cs', tr, tb', lg) /\ sound tb' /\ walike cs' (puts cs (lwrites t)).
Proof.
  intros [_ Rd] Sz Sd. unfold w_rt_fold_lr_meta, lpure, lwrites. destruct (srt_tree h) as [s|], (rt_tree t) as [u|]; try contradiction.
  - destruct (fold_done eqD eqC eqR lfn node lfn_eq k st s u (Some (NStr "start")) init cs tb (reads_rep _ _ _ Rd) Sz Sd)
      as (cs' & tr & tb' & lg & F & S' & A' & _). cbn [owrites]. eauto 10.
  - exists cs, [], tb, []. split; [reflexivity|]. split; [exact Sd|intros b; reflexivity].
Qed.

Lemma run_sound k h st cs tb y cs' tr tb' lg : sound tb -> run k h st cs tb = Ok (y, cs', tr, tb', lg) -> sound tb'.
Proof.
  intros Sd. unfold w_rt_fold_lr_meta. destruct (srt_tree h) as [s|]; [|intros H; now inv H]. intros H.
  destruct (fold_found eqD eqC eqR lfn node lfn_eq k st s _ init cs tb _ Sd H) as (t & _ & cs1 & tr1 & tb1 & lg1 & Z & S' & _). now inv Z.
Qed.
Lemma ran_sound hist tb : w_ran run hist tb -> sound tb.
Proof. induction 1 as [|hh tab k1 st1 cs1 x y cs' tr tab' lg _ IH G]; [discriminate|]. exact (run_sound _ _ _ _ _ _ _ _ _ _ IH G). Qed.

Context (rd : wcells C -> R -> P -> Prop) (ppush : P -> E -> P) (parc : P -> level * option name -> P) (pinit : P).
Hypothesis rd_init : forall cs, rd cs init pinit.
Hypothesis rd_push : forall cs a p e, rd cs a p -> rd cs (push a e) (ppush p e).
Hypothesis rd_arc : forall cs a p lv n, rd cs a p -> chold cs (snd (arc a (lv, n))) -> rd cs (fst (arc a (lv, n))) (parc p (lv, n)).
Lemma rd_pushes v : forall cs a p, rd cs a p -> rd cs (fold_left push v a) (fold_left ppush v p).
Proof. induction v as [|e v IH]; intros cs a p H; [exact H|]. apply IH. now apply rd_push. Qed.

Theorem next_list free (t : raz_tree E M) : tree_reached free t -> NoDup (node_names t) ->
  exists k0, forall k hist tab st cs h, k0 <= k -> w_ran run hist tab -> tree_reads st h t ->
  exists y cs' tr tab' lg, run k h st cs tab = Ok (y, cs', tr, tab', lg) /\ rd cs' y (rt_fold_lr_meta t pinit ppush parc) /\
    forall b, fst b <> path \/ ~ In (snd b) (node_names t) -> cs' b = cs b.
Proof.
  intros Re Nd. exists (match rt_tree t with None => 0 | Some x => t_size x end). intros k hist tab st cs h Hk Hs Rd.
  destruct (run_done k st h t cs tab Rd Hk (ran_sound _ _ Hs)) as (cs' & tr & tb' & lg & F & _ & Al).
  exists (lpure t), cs', tr, tb', lg. split; [exact F|].
  assert (Q : oquiet lfn (rt_tree t)).
  { destruct (tree_reached_good _ Re) as [O _]. unfold oquiet. destruct (rt_tree t) as [u|]; [|exact I]. now apply ok_quiet. }
  pose proof (names_uniq _ Nd) as Un. unfold rtnames in Un. split.
  - unfold lpure, rt_fold_lr_meta, lwrites in *. destruct (rt_tree t) as [u|] eqn:Et; [|apply rd_init]. cbn [oquiet owrites otnames] in *.
    apply (rd_fold lfn rd (fun a e l n => match e with Leaf v => fold_left ppush v a | _ => parc a (l, n) end)).
    + intros cs0 a p [|m1 m2|v] lv n R0 H0; [now apply rd_arc|now apply rd_arc|now apply rd_pushes].
    + apply rd_init.
    + apply (chold_alike (puts cs (writes lfn u (Some (NStr "start")) init))); [intros b; symmetry; apply Al|].
      apply (writes_hold lfn lfn_at lfn_one u Q Un).
  - intros b D. rewrite Al. unfold lwrites. apply (puts_upto (otnames (rt_tree t)) _ cs (owrites_at lfn lfn_at _ Q _ _)).
    destruct D as [D|D]; [now left|right]. apply cnt_zero in D. revert D. unfold node_names.
    destruct (rt_tree t) as [u|]; [|auto]. cbn [oinorder otnames]. now rewrite names_cnt.
Qed.
End ToList.

(** ** The accumulators *)
Section Uses.
Context {E M : Type} {RM : RazMeta E M} (eqD : forall x y : tree_data E M, {x = y} + {x <> y})
  (eqE : forall x y : E, {x = y} + {x <> y}) {Nsp : here}.
Definition list_arc (a : slist E) (m : level * option name) : slist E * list (loc * slist E) :=
  match snd m with None => (a, []) | Some n => (SLName n (SLArt (path, n)), [((path, n), a)]) end.
Definition vlist_arc (a : svlist E) (m : level * option name) : svlist E * list (loc * svlist E) :=
  match snd m with None => (a, []) | Some n => (SVName n (SVArt (path, n)), [((path, n), a)]) end.
Definition stack_arc {S} (meta : level -> S) (a : sastack E S) (m : level * option name) : sastack E S * list (loc * body (S * list E)) :=
  match sa_current a with
  | [] => (a, [])
  | _ =>
      match snd m with
      | None => (SAStack [] (Some (HPut (meta (fst m), sa_current a) (sa_archived a))), [])
      | Some n => (SAStack [] (Some (HCell (path, n))), [((path, n), ((meta (fst m), sa_current a), sa_archived a))])
      end
  end.
Lemma one_hold {C} (a : loc) (c : C) cs : chold (puts cs [(a, c)]) [(a, c)].
Proof. intros x [<-|[]]. apply w_write_same. Qed.

Definition made_list {C P R : Type} (run : nat -> sraz_tree E M -> wm (level * list E) (tree_data E M) C (stree (tree_data E M) * option name * R) R R)
    (rd : wcells C -> R -> P -> Prop) (t : raz_tree E M) (x : P) : Prop :=
  exists k0, forall k hist tab st cs h, k0 <= k -> w_ran run hist tab -> tree_reads st h t ->
  exists y cs' tr tab' lg, run k h st cs tab = Ok (y, cs', tr, tab', lg) /\ rd cs' y x /\
    forall b, fst b <> path \/ ~ In (snd b) (node_names t) -> cs' b = cs b.

Theorem next_to_list free (t : raz_tree E M) : tree_reached free t -> NoDup (node_names t) ->
  made_list (to_list_inc eqD eqE) list_reads t (to_list (list_iface E) t).
Proof.
  apply (next_list eqD _ _ _ _ list_arc).
  - intros a [lv [n|]] st cs tb; reflexivity.
  - intros a lv [n|] x; [|intros []]. intros [<-|[]]. eauto.
  - intros a [lv [n|]] cs; [apply one_hold|intros x []].
  - intros cs. constructor.
  - intros cs a p e H. now constructor.
  - intros cs a p lv [n|] H Q; [|exact H]. constructor. econstructor; [|exact H]. exact (Q _ (or_introl eq_refl)).
Qed.
Theorem next_to_vlist free (t : raz_tree E M) : tree_reached free t -> NoDup (node_names t) ->
  made_list (to_vlist_inc eqD eqE) vlist_reads t (to_list (vl_iface E) t).
Proof.
  apply (next_list eqD _ _ _ _ vlist_arc).
  - intros a [lv [n|]] st cs tb; reflexivity.
  - intros a lv [n|] x; [|intros []]. intros [<-|[]]. eauto.
  - intros a [lv [n|]] cs; [apply one_hold|intros x []].
  - intros cs. constructor.
  - intros cs a p e H. inv H; cbn [svl_push seq_push vl_iface vl_push]; repeat (econstructor; eauto).
  - intros cs a p lv [n|] H Q; [|exact H]. constructor. econstructor; [|exact H]. exact (Q _ (or_introl eq_refl)).
Qed.
Context {S : Type} (eqS : forall x y : S, {x = y} + {x <> y}) (meta : level -> S).
Theorem next_to_stack free (t : raz_tree E M) : tree_reached free t -> NoDup (node_names t) ->
  made_list (to_stack_inc eqD eqE eqS meta) astack_reads t
    (rt_fold_lr_meta t as_new as_push (fun (s : astack E S) m => snd (as_archive s (snd m) (meta (fst m))))).
Proof.
  apply (next_list eqD _ _ _ _ (stack_arc meta)).
  - intros a [lv [n|]] st cs tb; unfold was_archive, stack_arc; destruct (sa_current a); reflexivity.
  - intros a lv n x. unfold stack_arc. cbn [fst snd]. destruct (sa_current a); [intros []|]. destruct n as [n|]; [|intros []]. intros [<-|[]]. eauto.
  - intros a [lv [n|]] cs; unfold stack_arc; destruct (sa_current a); try apply one_hold; intros x [].
  - intros cs. split; constructor.
  - intros cs a p e [H1 H2]. split; [|exact H2]. cbn [sa_push sa_current as_push current]. now rewrite H1.
  - intros cs a p lv n [H1 H2]. unfold stack_arc, as_archive, as_archive_with_capacity. cbn [fst snd]. rewrite <- H1.
    destruct (sa_current a) as [|e v] eqn:Ec; [intros _; split; [cbn [fst snd]; congruence|exact H2]|]. destruct n as [n|]; intros Q; (split; [reflexivity|]); cbn [snd sa_archived archived fst].
    + constructor 3 with (1 := Q _ (or_introl eq_refl)). exact H2.
    + constructor. exact H2.
Qed.
End Uses.
