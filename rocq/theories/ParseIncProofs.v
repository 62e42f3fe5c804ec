(** * The memoised parser over stores answers as from scratch. *)

From Verif Require Import Base BaseFacts Spec SpecRaz StackModel AStackModel LevelTreeModel TreeSpec TreeProofs TreeCursorModel RazMetaModel RazModel RazView RazProofs
  RazFrom RazScripts RazReach MemoModel MemoSpec StoreModel StoreSpec StoreScripts StoreProofs StoreRaz StoreHistory IncModel IncSpec IncProofs AccumModel AccumScripts AccumProofs ExampleModel ExampleSpec
  ExampleProofs AdderProofs BuildIncProofs StoreNs StoreMapProofs ListIncModel ListIncSpec ListIncProofs TokenIncModel TokenIncProofs ParseIncModel.

(** ** Computations on cells *)
Section Simple.
Context {T A C X R : Type} (eqA : forall x y : A, {x = y} + {x <> y}) (eqC : forall x y : C, {x = y} + {x <> y}) {Nsp : here}.
Notation cells := (wcells C).
Notation wm := (wm T A C X R).
Notation wheld := (wheld eqA eqC).
Implicit Types (cs : cells) (st : store T A) (tb : wtab A C X R).

(** Plain computations on cells. *)
Definition pm (Y : Type) : Type := cells -> res (Y * cells).
Definition p_ret {Y} (y : Y) : pm Y := fun cs => Ok (y, cs).
Definition p_bind {Y Z} (p : pm Y) (f : Y -> pm Z) : pm Z := fun cs => do ' (y, cs1) <- p cs; f y cs1.
Definition ralike {Y} (x y : res (Y * cells)) : Prop :=
  match x, y with
  | Ok (a, c), Ok (b, d) => a = b /\ walike c d
  | Panic s, Panic s' => s = s'
  | Fuel, Fuel => True
  | _, _ => False
  end.
Definition steady {Y} (p : pm Y) : Prop := forall cs cs2, walike cs cs2 -> ralike (p cs) (p cs2).
(** Doing [p] again where [tr] holds gives the same and changes nothing. *)
Definition again {Y} (p : pm Y) (y : Y) (tr : list (wseen A C)) : Prop :=
  forall st cs, wheld st cs tr -> exists c, p cs = Ok (y, c) /\ walike c cs.
Definition simple {Y} (m : wm Y) (p : pm Y) : Prop := steady p /\ forall st cs tb,
  match p cs with
  | Ok (y, cs') => exists tr, m st cs tb = Ok (y, cs', tr, tb, []) /\ again p y tr
  | Panic s => m st cs tb = Panic s
  | Fuel => m st cs tb = Fuel
  end.
Lemma walike_trans (a b c : cells) : walike a b -> walike b c -> walike a c.
Proof. intros H1 H2 x. now rewrite H1. Qed.
Lemma walike_sym (a b : cells) : walike a b -> walike b a.
Proof. intros H x. now rewrite H. Qed.
Lemma walike_refl (a : cells) : walike a a.
Proof. intros x. reflexivity. Qed.
Lemma steady_bind {Y Z} (p : pm Y) (f : Y -> pm Z) : steady p -> (forall y, steady (f y)) -> steady (p_bind p f).
Proof.
  intros Hp Hf cs cs2 H. specialize (Hp cs cs2 H). unfold p_bind. destruct (p cs) as [[y c]|s|], (p cs2) as [[y' c']|s'|]; try contradiction; cbn [bind].
  - destruct Hp as [<- Hc]. now apply Hf.
  - exact Hp.
  - exact I.
Qed.
Lemma steady_at {Y} (p : pm Y) y c cs cs2 : steady p -> p cs = Ok (y, c) -> walike cs cs2 -> exists c2, p cs2 = Ok (y, c2) /\ walike c c2.
Proof.
  intros S H W. specialize (S cs cs2 W). rewrite H in S. destruct (p cs2) as [[y' c']|s|]; try contradiction. destruct S as [<- S]. eauto.
Qed.
Lemma again_bind {Y Z} (p : pm Y) (f : Y -> pm Z) y z tr tr' : (forall y, steady (f y)) -> again p y tr -> again (f y) z tr' -> again (p_bind p f) z (tr ++ tr').
Proof.
  intros Sf H H' st cs. rewrite wheld_app. intros [Q Q']. destruct (H st cs Q) as (c & E & W). destruct (H' st cs Q') as (c' & E' & W').
  unfold p_bind. rewrite E. cbn [bind]. destruct (steady_at _ _ _ _ _ (Sf y) E' (walike_sym _ _ W)) as (c2 & E2 & W2).
  exists c2. split; [exact E2|]. exact (walike_trans _ _ _ (walike_sym _ _ W2) W').
Qed.
Lemma simple_ret {Y} (y : Y) : simple (w_ret y) (p_ret y).
Proof.
  split; [intros cs cs2 H; now split|]. intros st cs tb. exists []. split; [reflexivity|]. intros st2 cs2 _. exists cs2. now split.
Qed.
Lemma simple_bind {Y Z} (m : wm Y) (p : pm Y) (f : Y -> wm Z) (g : Y -> pm Z) : simple m p -> (forall y, simple (f y) (g y)) ->
  simple (w_bind m f) (p_bind p g).
Proof.
  intros [Sp Hm] Hf. split; [apply steady_bind; [exact Sp|intros y; apply Hf]|]. intros st cs tb. specialize (Hm st cs tb).
  unfold p_bind, w_bind. destruct (p cs) as [[y c]|s|] eqn:Ep; cbn [bind]; [|now rewrite Hm|now rewrite Hm].
  destruct Hm as (tr & -> & Ag). cbn [bind]. destruct (Hf y) as [Sy Hy]. specialize (Hy st c tb).
  destruct (g y c) as [[z c']|s|] eqn:Eg; [|now rewrite Hy|now rewrite Hy]. destruct Hy as (tr' & -> & Ag'). cbn [bind]. exists (tr ++ tr').
  split; [reflexivity|]. apply (again_bind p g y z tr tr' (fun y => proj1 (Hf y)) Ag Ag').
Qed.
Definition p_lift {Y} (m : res Y) : pm Y := fun cs => do y <- m; Ok (y, cs).
Lemma simple_lift {Y} (m : res Y) : simple (w_lift m) (p_lift m).
Proof.
  split; [intros cs cs2 H; unfold p_lift; destruct m; cbn; auto|]. intros st cs tb. unfold p_lift, w_lift. destruct m as [y|s|]; cbn [bind]; auto.
  exists []. split; [reflexivity|]. intros st2 cs2 _. exists cs2. now split.
Qed.
Definition p_cell (n : name) (c : C) : pm loc := fun cs => Ok ((path, n), w_write cs (path, n) c).
Lemma simple_cell n c : simple (w_cell n c) (p_cell n c).
Proof.
  split; [intros cs cs2 H; split; [reflexivity|now apply w_write_alike]|]. intros st cs tb. eexists. split; [reflexivity|].
  intros st2 cs2 Q. eexists. split; [reflexivity|]. change [WCell (path, n) c] with (map (cellseen (A := A)) [((path, n), c)]) in Q.
  apply wheld_cells in Q. exact (puts_hold [((path, n), c)] cs2 Q).
Qed.
End Simple.
Section Look.
Context {T A S X R : Type} (eqA : forall x y : A, {x = y} + {x <> y}) (eqC : forall x y : body S, {x = y} + {x <> y}) {Nsp : here}.
Definition p_look (a : loc) : pm (C := body S) (body S) := fun cs => do c <- unwrap "force: no such cell" (cs a); Ok (c, cs).
Lemma simple_look a : simple (T := T) (X := X) (R := R) eqA eqC (w_look a) (p_look a).
Proof.
  split; [intros cs cs2 H; unfold p_look; rewrite (H a); destruct (cs2 a); cbn; auto|]. intros st cs tb. unfold p_look, w_look.
  destruct (cs a) as [c|]; cbn [unwrap bind]; [|reflexivity]. eexists. split; [reflexivity|]. intros st2 cs2 Q.
  change [WCell a c] with (map (cellseen (A := A)) [(a, c)]) in Q. apply wheld_cells in Q. pose proof (Q _ (or_introl eq_refl)) as Q0. cbn [fst snd] in Q0. rewrite Q0. cbn [unwrap bind].
  exists cs2. now split.
Qed.
End Look.

(** ** The fold *)
Section Fold.
Context {T A C R : Type} (eqA : forall x y : A, {x = y} + {x <> y}) (eqC : forall x y : C, {x = y} + {x <> y})
  (eqR : forall x y : R, {x = y} + {x <> y}) {Nsp : here}.
Notation cells := (wcells C).
Notation wm := (wm T A C (stree A * option name * R) R).
Notation tab := (wtab A C (stree A * option name * R) R).
Notation wheld := (wheld eqA eqC).
Notation again := (again (T := T) eqA eqC).
Context (node : R -> A -> level -> option name -> wm R) (pn : R -> A -> level -> option name -> pm (C := C) R).
Hypothesis node_simple : forall a d l n, simple eqA eqC (node a d l n) (pn a d l n).
Notation run := (w_fold_lr_meta eqA eqC eqR).
Implicit Types (cs : cells) (st : store T A) (tb : tab).

(** The fold without memos. *)
Fixpoint pf (t : tree A) (s : option name) (a : R) : pm (C := C) R :=
  match t with
  | Node lv nm d l r =>
      match l, r with
      | None, None => pn a d lv s
      | _, _ =>
          p_bind (match l with None => p_ret a | Some t1 => pf t1 s a end)
            (fun a1 => p_bind (pn a1 d lv nm) (fun a2 => match r with None => p_ret a2 | Some t2 => pf t2 nm a2 end))
      end
  end.
Definition opf (o : option (tree A)) s a : pm R := match o with None => p_ret a | Some t => pf t s a end.
Lemma pf_branch lv nm d l r s a : l <> None \/ r <> None ->
  pf (Node lv nm d l r) s a = p_bind (opf l s a) (fun a1 => p_bind (pn a1 d lv nm) (fun a2 => opf r nm a2)).
Proof. destruct l, r; intros [H|H]; try congruence; reflexivity. Qed.
Lemma pf_steady t : forall s a, steady (pf t s a).
Proof.
  induction t as [lv nm d l r IHl IHr] using tree_induction. intros s a.
  assert (G : forall o s a, optP (fun t => forall s a, steady (pf t s a)) o -> steady (opf o s a)).
  { intros [t|] s0 a0 H; [apply H|]. apply (proj1 (simple_ret (T := T) (X := unit) (R := unit) eqA eqC a0)). }
  assert (Z : (l = None /\ r = None) \/ (l <> None \/ r <> None)) by (destruct l, r; intuition congruence).
  destruct Z as [[-> ->]|Z]; [apply node_simple|]. rewrite (pf_branch _ _ _ _ _ _ _ Z).
  apply steady_bind; [now apply G|]. intros a1. apply steady_bind; [apply node_simple|]. intros a2. now apply G.
Qed.
Lemma opf_steady o s a : steady (opf o s a).
Proof. destruct o; [apply pf_steady|]. apply (proj1 (simple_ret (T := T) (X := unit) (R := unit) eqA eqC a)). Qed.

Definition entry_good (e : wentry A C (stree A * option name * R) R) : Prop :=
  let '(h, s, a) := we_arg e in
  exists t, again (pf t s a) (we_res e) (we_seen e) /\ forall st cs, wheld st cs (we_seen e) -> StoreProofs.rep st h t.
Definition good tb : Prop := forall n e, tb n = Some e -> entry_good e.
(** What a run that answers has done. *)
Definition did st h s a cs (o : R * cells * list (wseen A C) * tab * list (stree A)) : Prop :=
  let '(y, cs', tr, tb', _) := o in
  good tb' /\ exists t, StoreProofs.rep st h t /\ again (pf t s a) y tr /\ (forall st2 cs2, wheld st2 cs2 tr -> StoreProofs.rep st2 h t) /\
    exists c, pf t s a cs = Ok (y, c) /\ walike cs' c.

Lemma call_did n st h s a cs tb (body : wm R) o : good tb -> (forall o, body st cs tb = Ok o -> did st h s a cs o) ->
  w_memo_opt eqA eqC (slr_same eqA eqR) n (h, s, a) body st cs tb = Ok o -> did st h s a cs o.
Proof.
  intros Gd B H. destruct n as [n|]; [|exact (B _ H)]. cbn [w_memo_opt] in H. unfold w_memo in H.
  assert (Rr : (do ' (r, cs', s0, tab', lg) <- body st cs tb; Ok (r, cs', s0, w_set tab' (path, n) (WEntry (h, s, a) s0 r), lg)) = Ok o -> did st h s a cs o).
  { intros Q. apply bind_Ok in Q. destruct Q as ([[[[r cs'] s0] tab'] lg] & Q & Z). inv Z. destruct (B _ Q) as (G' & t & D1 & D2 & D3 & D4).
    split; [|exists t; auto]. intros m e. unfold w_set. destruct (loc_eq_dec m (path, n)); [|apply G']. intros Z. inv Z. exists t. cbn [we_res we_seen]. auto. }
  destruct (tb (path, n)) as [e|] eqn:Et; [|exact (Rr H)].
  destruct (slr_same eqA eqR (h, s, a) (we_arg e) && forallb (wholds eqA eqC st cs) (we_seen e)) eqn:Q; [|exact (Rr H)].
  apply andb_true_iff in Q. destruct Q as [Q1 Q2]. apply slr_same_eq in Q1.
  pose proof (Gd _ _ Et) as Eo. unfold entry_good in Eo. rewrite <- Q1 in Eo. destruct Eo as (t & Ea & Er).
  inv H. split; [exact Gd|]. exists t. split; [exact (Er st cs Q2)|]. split; [exact Ea|]. split; [exact Er|].
  destruct (Ea st cs Q2) as (c & E1 & E2). exists c. split; [exact E1|now apply walike_sym].
Qed.
Definition child k n so s a : wm R :=
  match so with
  | None => w_ret a
  | Some t1 => w_memo_opt eqA eqC (slr_same eqA eqR) n (t1, s, a) (run k node t1 s a)
  end.
Definition ran_inner k (h : stree A) d sl sr s a : wm R :=
  wop a1 <- child k (fork_left (st_name h)) sl s a; wop a2 <- node a1 d (st_level h) (st_name h); child k (fork_right (st_name h)) sr (st_name h) a2.
Lemma run_eq k h s a st cs tb d sl sr : tree_look st h = Some (d, sl, sr) ->
  exists tr0, (forall st2 cs2, wheld st2 cs2 tr0 -> tree_look st2 h = Some (d, sl, sr)) /\
    run (S k) node h s a st cs tb =
      do ' (y, cs', tr, tb', lg) <- (match sl, sr with None, None => node a d (st_level h) s | _, _ => ran_inner k h d sl sr s a end) st cs tb;
      Ok (y, cs', tr0 ++ tr, tb', h :: lg).
Proof.
  intros Lk. destruct (force_look eqA eqC st h _ cs tb Lk) as (tr0 & F0 & K0). exists tr0. split; [exact K0|].
  cbn [w_fold_lr_meta]. rewrite (w_bind_eq (w_enter h) _ st cs tb tt cs [] tb [h]) by reflexivity. rewrite (w_bind_eq _ _ _ _ _ _ _ _ _ _ F0).
  unfold ran_inner, child. destruct sl, sr; (match goal with |- bind (bind ?m _) _ = bind ?m1 _ => change m with m1; destruct m1 as [[[[[? ?] ?] ?] ?]|?|] end); reflexivity.
Qed.
Lemma run_did k : forall st h s a cs tb o, good tb -> run k node h s a st cs tb = Ok o -> did st h s a cs o.
Proof.
  induction k as [|k IH]; intros st h s a cs tb o Gd H; [discriminate|].
  destruct (tree_look st h) as [[[d sl] sr]|] eqn:Lk.
  2: { cbn [w_fold_lr_meta] in H. rewrite (w_bind_eq (w_enter h) _ st cs tb tt cs [] tb [h]) in H by reflexivity. unfold w_bind, w_force in H. rewrite Lk in H. discriminate. }
  destruct (run_eq k h s a st cs tb d sl sr Lk) as (tr0 & K0 & Q). rewrite Q in H. clear Q.
  apply bind_Ok in H. destruct H as ([[[[y cs'] tr] tb'] lg] & H & Q). inv Q.
  assert (Child : forall n so s a cs tb y cs' tr tb' lg, good tb -> child k n so s a st cs tb = Ok (y, cs', tr, tb', lg) ->
    good tb' /\ exists t, orep st so t /\ again (opf t s a) y tr /\ (forall st2 cs2, wheld st2 cs2 tr -> orep st2 so t) /\
      exists c, opf t s a cs = Ok (y, c) /\ walike cs' c).
  { intros n so s1 a1 cs1 tb1 y1 cs1' tr1 tb1' lg1 G1 Q. destruct so as [h1|]; cbn [child] in Q.
    - destruct (call_did n st h1 s1 a1 cs1 tb1 _ _ G1 (fun o => IH st h1 s1 a1 cs1 tb1 o G1) Q) as (G' & t & D1 & D2 & D3 & D4).
      split; [exact G'|]. exists (Some t). auto.
    - inv Q. split; [exact G1|]. exists None. split; [exact I|]. split.
      + intros st2 cs2 _. exists cs2. split; [reflexivity|apply walike_refl].
      + split; [intros; exact I|]. eexists. split; [reflexivity|apply walike_refl]. }
  assert (Z : (sl = None /\ sr = None) \/ (sl <> None \/ sr <> None)) by (destruct sl, sr; intuition congruence).
  destruct Z as [[-> ->]|Z].
  - pose proof (proj2 (node_simple a d (st_level h) s) st cs tb) as Ns. destruct (pn a d (st_level h) s cs) as [[y0 c0]|?|] eqn:Ep; [|congruence|congruence].
    destruct Ns as (tr1 & Q & Ag). rewrite Q in H. inv H. split; [exact Gd|]. exists (Node (st_level h) (st_name h) d None None).
    split; [exact (rep_back st h _ _ _ None None None None eq_refl eq_refl Lk I I)|]. split.
    + intros st2 cs2. rewrite wheld_app. intros [_ Q2]. exact (Ag st2 cs2 Q2).
    + split; [|exists cs'; split; [exact Ep|apply walike_refl]]. intros st2 cs2. rewrite wheld_app. intros [Q1 _].
      exact (rep_back st2 h _ _ _ None None None None eq_refl eq_refl (K0 _ _ Q1) I I).
  - assert (H' : ran_inner k h d sl sr s a st cs tb = Ok (y, cs', tr, tb', lg)) by (destruct sl, sr; auto; destruct Z; congruence). clear H.
    unfold ran_inner in H'. apply w_bind_Ok in H'. destruct H' as (a1 & cs1 & tr1 & tb1 & lg1 & tr2 & lg2 & H1 & H & -> & ->).
    destruct (Child _ _ _ _ _ _ _ _ _ _ _ Gd H1) as (G1 & l & Rl & Al & Bl & c1 & El & Wl).
    apply w_bind_Ok in H. destruct H as (a2 & cs2 & tr3 & tb2 & lg3 & tr4 & lg4 & H2 & H3 & -> & ->).
    pose proof (proj2 (node_simple a1 d (st_level h) (st_name h)) st cs1 tb1) as Ns.
    destruct (pn a1 d (st_level h) (st_name h) cs1) as [[y0 c0]|?|] eqn:Ep; [|congruence|congruence].
    destruct Ns as (tr5 & Q & Ag). rewrite Q in H2. inv H2.
    destruct (Child _ _ _ _ _ _ _ _ _ _ _ G1 H3) as (G2 & r & Rr & Ar & Br & c2 & Er & Wr).
    assert (Ne : l <> None \/ r <> None) by (destruct sl, sr, l, r; try contradiction; destruct Z; try congruence; try (left; discriminate); right; discriminate).
    split; [exact G2|]. exists (Node (st_level h) (st_name h) d l r). rewrite (pf_branch _ _ _ _ _ _ _ Ne).
    split; [exact (rep_back _ _ _ _ _ _ _ _ _ eq_refl eq_refl Lk Rl Rr)|]. split; [|split].
    + intros st2 cs9. rewrite wheld_app. intros [_ Q2]. revert st2 cs9 Q2. change (again (p_bind (opf l s a) (fun a1 => p_bind (pn a1 d (st_level h) (st_name h)) (fun a2 => opf r (st_name h) a2))) y (tr1 ++ tr3 ++ tr4)).
      apply (again_bind eqA eqC _ _ a1); [|exact Al|].
      * intros a9. apply steady_bind; [apply node_simple|]. intros a8. apply opf_steady.
      * apply (again_bind eqA eqC _ _ a2); [intros; apply opf_steady|exact Ag|exact Ar].
    + intros st2 cs9. rewrite !wheld_app. intros (Q1 & Q2 & Q3 & Q4).
      exact (rep_back st2 h _ _ _ _ _ _ _ eq_refl eq_refl (K0 _ _ Q1) (Bl _ _ Q2) (Br _ _ Q4)).
    + unfold p_bind. rewrite El. cbn [bind].
      destruct (steady_at _ _ _ _ c1 (proj1 (node_simple a1 d (st_level h) (st_name h))) Ep Wl) as (c3 & E3 & W3). rewrite E3. cbn [bind].
      destruct (steady_at _ _ _ _ c3 (opf_steady r (st_name h) a2) Er W3) as (c4 & E4 & W4). exists c4. split; [exact E4|]. exact (walike_trans _ _ _ Wr W4).
Qed.
(** Where the plain fold answers, so does the run. *)
Lemma run_answers k : forall st h t s a cs tb y c, StoreProofs.rep st h t -> t_size t <= k -> good tb -> pf t s a cs = Ok (y, c) ->
  exists o, run k node h s a st cs tb = Ok o.
Proof.
  induction k as [|k IH]; intros st h t s a cs tb y c Rp Sz Gd E; [destruct t; simpl in Sz; lia|].
  destruct t as [lv nm d l r]. pose proof Rp as Rp'. apply rep_eq in Rp'. cbn [t_level t_name t_peek t_left t_right] in Rp'.
  destruct Rp' as (El & En & sl & sr & Lk & Rl & Rr). destruct (run_eq k h s a st cs tb d sl sr Lk) as (tr0 & K0 & Q). rewrite Q. clear Q.
  assert (Child : forall n o so s a cs tb y c, orep st so o -> match o with None => 0 | Some t => t_size t end <= k -> good tb -> opf o s a cs = Ok (y, c) ->
    exists cs' tr tb' lg, child k n so s a st cs tb = Ok (y, cs', tr, tb', lg) /\ walike cs' c /\ good tb').
  { intros n o so s1 a1 cs1 tb1 y1 c1 Ro So G1 E1. destruct so as [h1|], o as [t1|]; try contradiction; cbn [child opf orep] in *.
    - assert (X : exists x, w_memo_opt eqA eqC (slr_same eqA eqR) n (h1, s1, a1) (run k node h1 s1 a1) st cs1 tb1 = Ok x).
      { destruct (IH st h1 t1 s1 a1 cs1 tb1 y1 c1 Ro So G1 E1) as ([[[[y2 cs2] tr2] tb2] lg2] & X). destruct n as [n|]; [|eauto]. cbn [w_memo_opt]. unfold w_memo. rewrite X. cbn [bind].
        destruct (tb1 (path, n)) as [e|]; [|eauto]. destruct (slr_same eqA eqR (h1, s1, a1) (we_arg e) && forallb (wholds eqA eqC st cs1) (we_seen e)); eauto. }
      destruct X as ([[[[y2 cs2] tr2] tb2] lg2] & X). rewrite X.
      destruct (call_did n st h1 s1 a1 cs1 tb1 _ _ G1 (fun o => run_did k st h1 s1 a1 cs1 tb1 o G1) X) as (G' & t & D1 & _ & _ & c9 & D4 & D5).
      pose proof (rep_one st t h1 t1 D1 Ro). subst t. rewrite E1 in D4. inv D4. eauto 10.
    - inv E1. do 4 eexists. split; [reflexivity|]. split; [apply walike_refl|exact G1]. }
  assert (Z : (l = None /\ r = None) \/ (l <> None \/ r <> None)) by (destruct l, r; intuition congruence).
  destruct Z as [[-> ->]|Z].
  - destruct sl, sr; try contradiction. rewrite El. cbn [pf] in E. pose proof (proj2 (node_simple a d lv s) st cs tb) as Ns. rewrite E in Ns.
    destruct Ns as (tr & -> & _). cbn [bind]. eauto.
  - rewrite (pf_branch _ _ _ _ _ _ _ Z) in E. unfold p_bind in E. apply bind_Ok in E. destruct E as ([a1 c1] & E1 & E).
    apply bind_Ok in E. destruct E as ([a2 c2] & E2 & E3).
    assert (X : exists x, ran_inner k h d sl sr s a st cs tb = Ok x).
    { unfold ran_inner. rewrite El, En. destruct (Child (fork_left nm) l sl s a cs tb a1 c1 Rl) as (cs1 & tr1 & tb1 & lg1 & X1 & W1 & G1); [simpl in Sz; lia|exact Gd|exact E1|].
      rewrite (w_bind_eq _ _ _ _ _ _ _ _ _ _ X1). pose proof (proj2 (node_simple a1 d lv nm) st cs1 tb1) as Ns.
      destruct (steady_at _ _ _ _ cs1 (proj1 (node_simple a1 d lv nm)) E2 (walike_sym _ _ W1)) as (c3 & E4 & W4). rewrite E4 in Ns.
      destruct Ns as (tr2 & X2 & _). rewrite (w_bind_eq _ _ _ _ _ _ _ _ _ _ X2).
      destruct (steady_at _ _ _ _ c3 (opf_steady r nm a2) E3 W4) as (c5 & E5 & W5).
      destruct (Child (fork_right nm) r sr nm a2 c3 tb1 y c5 Rr) as (cs3 & tr3 & tb3 & lg3 & X3 & _ & _); [simpl in Sz; lia|exact G1|exact E5|].
      rewrite X3. cbn [bind]. eauto. }
    destruct X as ([[[[y2 cs2] tr2] tb2] lg2] & X).
    assert (X' : match sl, sr with None, None => node a d (st_level h) s | _, _ => ran_inner k h d sl sr s a end st cs tb = Ok (y2, cs2, tr2, tb2, lg2)).
    { destruct sl, sr; auto. destruct l, r; try contradiction. destruct Z; congruence. }
    rewrite X'. cbn [bind]. eauto.
Qed.
End Fold.

(** ** The parser without memos *)
Section Cells.
Context {E M : Type} {Nsp : here}.
Notation S := (M * list E)%type.
Notation cells := (wcells (body S)).
Notation pm := (pm (C := body S)).
Implicit Types (cs sub : cells).
Definition p_head (h : shead S) : pm (body S) := match h with HPut e n => p_ret (e, n) | HCell a => p_look a end.
Definition p_peek (s : option (shead S)) : pm (option S) := match s with None => p_ret None | Some h => p_bind (p_head h) (fun '(e, _) => p_ret (Some e)) end.
Definition p_pull (s : option (shead S)) : pm (option (option (shead S))) :=
  match s with None => p_ret None | Some h => p_bind (p_head h) (fun '(_, n) => p_ret (Some n)) end.
Definition p_retrieve (s : sastack E M) : pm (sastack E M) :=
  match sa_current s with
  | [] => p_bind (p_peek (sa_archived s)) (fun o => p_bind (p_lift (unwrap "retrieve: peek" o)) (fun '(_, v) =>
      p_bind (p_pull (sa_archived s)) (fun o => p_bind (p_lift (unwrap "retrieve: pull" o)) (fun rest => p_ret (SAStack v rest)))))
  | _ => p_ret s
  end.
Definition p_pop (s : sastack E M) : pm (option E * sastack E M) :=
  if sa_is_empty s then p_ret (None, s)
  else p_bind (p_retrieve s) (fun s1 => let (e, v) := vec_pop (sa_current s1) in p_ret (e, SAStack v (sa_archived s1))).
Definition p_archive (meta : level -> M) (s : sastack E M) (m : level * option name) : pm (sastack E M) :=
  match sa_current s with
  | [] => p_ret s
  | _ => p_bind (match snd m with
                 | None => p_ret (Some (HPut (meta (fst m), sa_current s) (sa_archived s)))
                 | Some n => p_bind (p_cell n ((meta (fst m), sa_current s), sa_archived s)) (fun a => p_ret (Some (HCell a)))
                 end) (fun a => p_ret (SAStack [] a))
  end.

Definition within_cells sub cs : Prop := forall b c, sub b = Some c -> cs b = Some c.
Lemma pop_reads sub cs h s : within_cells sub cs -> astack_reads sub h s ->
  exists e h' s', p_pop h cs = Ok ((e, h'), cs) /\ as_pop s = Ok (e, s') /\ astack_reads sub h' s'.
Proof.
  intros W [H1 H2]. destruct h as [cur ar], s as [cur' ar']. cbn [sa_current current sa_archived archived] in H1, H2. subst cur'.
  unfold p_pop, as_pop, sa_is_empty, as_is_empty. cbn [sa_current current sa_archived archived].
  assert (V : forall cur ar ar', stack_reads sub ar ar' -> exists e h' s',
    (let (e, v) := vec_pop cur in p_ret (C := body S) (e, SAStack v ar)) cs = Ok ((e, h'), cs) /\
    (let (e, v) := vec_pop cur in Ok (e, AStack v ar')) = Ok (e, s') /\ astack_reads (M := M) sub h' s').
  { intros c x y Q. destruct (vec_pop c) as [e v]. do 3 eexists. split; [reflexivity|]. split; [reflexivity|]. split; [reflexivity|exact Q]. }
  destruct cur as [|x cur].
  - inversion H2 as [|[m v] n l Q|p n [m v] x l Qc Q]; subst; cbn [ss_is_empty stack_is_empty andb].
    + do 3 eexists. split; [reflexivity|]. split; [reflexivity|]. split; [reflexivity|constructor].
    + exact (V v n l Q).
    + unfold p_bind, p_retrieve. cbn [sa_current sa_archived p_peek p_pull p_head p_look]. unfold p_bind, p_look, p_lift, p_ret. rewrite (W _ _ Qc). cbn [unwrap bind].
      rewrite (W _ _ Qc). cbn [unwrap bind]. exact (V v x l Q).
  - cbn [andb]. exact (V (x :: cur) ar ar' H2).
Qed.
Lemma reads_mono sub sub' h s : within_cells sub sub' -> stack_reads sub h s -> stack_reads (S := S) sub' h s.
Proof. intros W H. induction H as [|e h l H IH|p n e h l Q H IH]; [constructor|constructor; auto|econstructor; [apply W; exact Q|exact IH]]. Qed.

(** The cells that a stack uses are among those named in [L]. *)
Definition holds_in (L : list name) cs h s : Prop := exists sub, within_cells sub cs /\ (forall b c, sub b = Some c -> fst b = path /\ 0 < cnt (snd b) L) /\ astack_reads sub h s.
Lemma archive_reads meta L cs h s lv n : holds_in L cs h s -> (forall m, n = Some m -> cnt m L = 0) ->
  exists h' cs', p_archive meta h (lv, n) cs = Ok (h', cs') /\ holds_in (L ++ oroot n) cs' h' (snd (as_archive s n (meta lv))) /\ wupto (oroot n) cs cs'.
Proof.
  intros (sub & W & D & H1 & H2) F. unfold p_archive, as_archive, as_archive_with_capacity. cbn [fst snd]. rewrite <- H1.
  assert (D' : forall b c, sub b = Some c -> fst b = path /\ 0 < cnt (snd b) (L ++ oroot n)).
  { intros b c Q. destruct (D b c Q) as [D1 D2]. split; [exact D1|]. rewrite cnt_app. lia. }
  destruct (sa_current h) as [|e v] eqn:Ec.
  - do 2 eexists. split; [reflexivity|]. split; [|intros b _; reflexivity]. exists sub. split; [exact W|]. split; [exact D'|]. split; [cbn [snd]; now rewrite Ec|exact H2].
  - destruct n as [n|].
    + do 2 eexists. split; [reflexivity|]. split.
      * exists (w_write sub (path, n) ((meta lv, e :: v), sa_archived h)). split; [|split].
        -- intros b c. unfold w_write. destruct (loc_eq_dec b (path, n)); [auto|apply W].
        -- intros b c. unfold w_write. destruct (loc_eq_dec b (path, n)) as [->|]; [|apply D']. intros _. cbn [fst snd]. split; [reflexivity|].
           rewrite cnt_app. assert (cnt n (oroot (Some n)) = 1) by (cbn [oroot cnt count_occ]; destruct (name_eq_dec n n); congruence). lia.
        -- split; [reflexivity|]. cbn [snd sa_archived archived]. econstructor; [apply w_write_same|]. apply (reads_mono sub); [|exact H2].
           intros b c Q. rewrite w_write_other; [exact Q|]. intros ->. destruct (D _ _ Q) as [_ D2]. cbn [snd] in D2. rewrite (F n eq_refl) in D2. lia.
      * intros b Q. apply w_write_other. intros ->. cbn [fst snd] in Q.
        assert (cnt n (oroot (Some n)) = 1) by (cbn [oroot cnt count_occ]; destruct (name_eq_dec n n); congruence). destruct Q; [congruence|lia].
    + do 2 eexists. split; [reflexivity|]. split; [|intros b _; reflexivity]. exists sub. split; [exact W|]. split; [exact D'|]. split; [reflexivity|].
      constructor. exact H2.
Qed.
End Cells.

Lemma tree_ok_binary {E M} {RM : RazMeta E M} (t : tree (tree_data E M)) : tree_ok t -> binary t.
Proof.
  induction t as [lv nm d l r IHl IHr] using tree_induction. intros O. apply tree_ok_case in O.
  destruct O as [(v & O & _)|(lv' & nm' & ml & mr & tl & tr & O & _ & _ & _ & Ol & Or)]; inv O; [exact I|]. split; [now apply IHl|now apply IHr].
Qed.

Section Parse.
Context {M : Type} {RM : RazMeta token M} (eqD : forall x y : tree_data token M, {x = y} + {x <> y}) {Nsp : here}.
Notation nums := (sastack N level).
Notation C := (body (level * list N)).
Notation cells := (wcells C).
Definition p_parse_step (n : nums) (t : token) : pm (C := C) nums :=
  match t with
  | Num a => p_ret (sa_push n a)
  | OpPlus => p_bind (p_pop n) (fun '(b, n) =>
      match b with
      | Some b => p_bind (p_pop n) (fun '(a, n) => match a with Some a => p_ret (sa_push n (u32_madd a 1 b)) | None => p_ret (sa_push n b) end)
      | None => p_ret n
      end)
  end.
Fixpoint p_parse_steps (v : list token) (n : nums) : pm (C := C) nums :=
  match v with
  | [] => p_ret n
  | t :: v => p_bind (p_parse_step n t) (p_parse_steps v)
  end.
Definition p_parse_node (a : nums) (d : tree_data token M) (l : level) (n : option name) : pm (C := C) nums :=
  match d with Leaf v => p_parse_steps v a | _ => p_archive (fun l => l) a (l, n) end.

Ltac easy_simple := repeat first [apply simple_ret|apply simple_lift|apply simple_look|apply simple_cell|apply simple_bind|intros].
Lemma pop_simple {T A X R} (eqA : forall x y : A, {x = y} + {x <> y}) (n : nums) : simple (T := T) (X := X) (R := R) eqA eq_num_cell (wa_pop n) (p_pop n).
Proof.
  assert (H : forall h : shead (level * list N), simple (T := T) (X := X) (R := R) eqA eq_num_cell (w_head h) (p_head h)).
  { intros [e x|a]; [apply simple_ret|apply simple_look]. }
  unfold wa_pop, p_pop. destruct (sa_is_empty n); [apply simple_ret|]. apply simple_bind.
  - unfold wa_retrieve, p_retrieve. destruct (sa_current n); [|apply simple_ret].
    apply simple_bind; [unfold w_peek, p_peek; destruct (sa_archived n); [apply simple_bind; [apply H|intros [e x]; apply simple_ret]|apply simple_ret]|].
    intros o. apply simple_bind; [apply simple_lift|]. intros [lv v].
    apply simple_bind; [unfold w_pull, p_pull; destruct (sa_archived n); [apply simple_bind; [apply H|intros [e x]; apply simple_ret]|apply simple_ret]|].
    intros o1. apply simple_bind; [apply simple_lift|]. intros rest. apply simple_ret.
  - intros s1. destruct (vec_pop (sa_current s1)). apply simple_ret.
Qed.
Lemma parse_node_simple a d l n : simple eqD eq_num_cell (w_parse_node a d l n) (p_parse_node a d l n).
Proof.
  assert (Ar : simple eqD eq_num_cell (w_parse_node a Dummy l n) (p_archive (fun l => l) a (l, n))).
  { cbn [w_parse_node]. unfold was_archive, p_archive. destruct (sa_current a); [apply simple_ret|]. cbn [fst snd]. apply simple_bind; [|intros; apply simple_ret].
    unfold w_stack_push. destruct n; [|apply simple_ret]. apply simple_bind; [apply simple_cell|intros; apply simple_ret]. }
  destruct d as [|m1 m2|v]; [exact Ar|exact Ar|]. cbn [w_parse_node p_parse_node]. clear. revert a. induction v as [|t v IH]; intros a; [apply simple_ret|].
  cbn [w_parse_steps p_parse_steps]. apply simple_bind; [|exact IH]. destruct t as [x|]; [apply simple_ret|]. cbn [w_parse_step p_parse_step].
  apply simple_bind; [apply pop_simple|]. intros [[b|] n1]; [|apply simple_ret]. apply simple_bind; [apply pop_simple|]. intros [[c|] n2]; apply simple_ret.
Qed.

Lemma push_in L cs (h : nums) s x : holds_in L cs h s -> holds_in L cs (sa_push h x) (as_push s x).
Proof. intros (sub & W & D & H1 & H2). exists sub. split; [exact W|]. split; [exact D|]. split; [cbn; now rewrite H1|exact H2]. Qed.
Lemma pop_in L cs (h : nums) s : holds_in L cs h s -> exists e h' s', p_pop h cs = Ok ((e, h'), cs) /\ as_pop s = Ok (e, s') /\ holds_in L cs h' s'.
Proof.
  intros (sub & W & D & H). destruct (pop_reads sub cs h s W H) as (e & h' & s' & Q1 & Q2 & Q3). exists e, h', s'. split; [exact Q1|]. split; [exact Q2|].
  exists sub. auto.
Qed.
Lemma step_in L cs h s t : holds_in L cs h s -> exists h' s', p_parse_step h t cs = Ok (h', cs) /\ parse_step (astack_iface N) s t = Ok s' /\ holds_in L cs h' s'.
Proof.
  intros H. destruct t as [x|]; [do 2 eexists; split; [reflexivity|]; split; [reflexivity|]; now apply push_in|].
  cbn [p_parse_step parse_step]. change (@seq_pop N _ (astack_iface N)) with (@as_pop N level). change (@seq_push N _ (astack_iface N)) with (@as_push N level).
  destruct (pop_in L cs h s H) as (b & h1 & s1 & P1 & Q1 & H1). unfold p_bind. rewrite P1, Q1. cbn [bind].
  destruct b as [b|]; [|do 2 eexists; split; [reflexivity|]; split; [reflexivity|exact H1]].
  destruct (pop_in L cs h1 s1 H1) as (c & h2 & s2 & P2 & Q2 & H2). rewrite P2, Q2. cbn [bind].
  destruct c as [c|]; (do 2 eexists; split; [reflexivity|]; split; [reflexivity|now apply push_in]).
Qed.
Notation pstep := (fun a c => do n <- a; parse_step (astack_iface N) n c).
Lemma steps_in v : forall L cs h s, holds_in L cs h s -> exists h' s', p_parse_steps v h cs = Ok (h', cs) /\ fold_left pstep v (Ok s) = Ok s' /\ holds_in L cs h' s'.
Proof.
  induction v as [|t v IH]; intros L cs h s H; [do 2 eexists; split; [reflexivity|]; split; [reflexivity|exact H]|].
  destruct (step_in L cs h s t H) as (h1 & s1 & P1 & Q1 & H1). cbn [p_parse_steps fold_left bind]. unfold p_bind. rewrite P1, Q1. cbn [bind]. now apply IH.
Qed.
Definition pnode (a : res (astack N level)) (d : tree_data token M) (l : level) (n : option name) : res (astack N level) :=
  match d with Leaf v => fold_left pstep v a | _ => do s <- a; Ok (@if_archive N _ (astack_iface N) s (l, n)) end.
Lemma holds_more L L' cs (h : nums) s : (forall n, cnt n L <= cnt n L') -> holds_in L cs h s -> holds_in L' cs h s.
Proof. intros Q (sub & W & D & H). exists sub. split; [exact W|]. split; [|exact H]. intros b c Hb. destruct (D b c Hb). split; [assumption|]. specialize (Q (snd b)). lia. Qed.
Lemma pf_parse (t : tree (tree_data token M)) : binary t -> forall L s a p cs, uniq (L ++ tnames t) -> holds_in L cs a p ->
  exists a' p' cs', pf p_parse_node t s a cs = Ok (a', cs') /\ t_fold_lr_meta pnode t s (Ok p) = Ok p' /\ holds_in (L ++ tnames t) cs' a' p' /\ wupto (tnames t) cs cs'.
Proof.
  induction t as [lv nm d l r IHl IHr] using tree_induction. intros O L s a p cs Un H.
  destruct d as [|ml mr|v]; [contradiction|destruct l as [tl|], r as [tr|]; try contradiction|destruct l, r; try contradiction]; cycle 1.
  - destruct (steps_in v L cs a p H) as (h' & s' & P1 & Q1 & H1). exists h', s', cs. split; [exact P1|]. split; [exact Q1|].
    split; [|intros b _; reflexivity]. apply (holds_more L); [|exact H1]. intros n. rewrite cnt_app. lia.
  - destruct O as [Ol Or]. rename lv into lv', nm into nm'. cbn [optP] in IHl, IHr. rewrite tnames_eq in Un |- *. cbn [t_name t_left t_right otnames] in Un |- *.
    assert (U : forall n, cnt n L + cnt n (oroot nm') + cnt n (tnames tl) + cnt n (tnames tr) <= 1) by (intros n; specialize (Un n); rewrite !cnt_app in Un; lia).
    destruct (IHl Ol L s a p cs) as (a1 & p1 & c1 & P1 & Q1 & H1 & W1); [intros n; rewrite cnt_app; specialize (U n); lia|exact H|].
    destruct (archive_reads (fun l => l) _ _ _ _ lv' nm' H1) as (a2 & c2 & P2 & H2 & W2).
    { intros m ->. specialize (U m). rewrite cnt_app. assert (cnt m (oroot (Some m)) = 1) by (cbn [oroot cnt count_occ]; destruct (name_eq_dec m m); congruence). lia. }
    assert (U3 : uniq (((L ++ tnames tl) ++ oroot nm') ++ tnames tr)) by (intros n; specialize (U n); rewrite !cnt_app; lia).
    destruct (IHr Or _ nm' _ _ _ U3 H2) as (a3 & p3 & c3 & P3 & Q3 & H3 & W3).
    exists a3, p3, c3. split; [|split; [|split]].
    + cbn [pf]. unfold p_bind. rewrite P1. cbn [bind p_parse_node]. rewrite P2. cbn [bind]. exact P3.
    + cbn [t_fold_lr_meta]. rewrite Q1. cbn [pnode bind]. exact Q3.
    + eapply holds_more; [|exact H3]. intros n. rewrite !cnt_app. lia.
    + intros b D. rewrite !cnt_app in D. rewrite W3, W2, W1 by (destruct D; [now left|right; lia]). reflexivity.
Qed.

Lemma parse_ran_good hist tb : w_ran (parse_inc eqD) hist tb -> good (T := level * list token) eqD eq_num_cell p_parse_node tb.
Proof.
  induction 1 as [|hh tab k1 st1 cs1 x y cs' tr tab' lg _ IH G]; [discriminate|]. unfold parse_inc in G. destruct (srt_tree x) as [s|]; [|now inv G].
  exact (proj1 (run_did eqD eq_num_cell eq_nums w_parse_node p_parse_node parse_node_simple k1 st1 s _ _ cs1 tab _ IH G)).
Qed.
Theorem next_parse_binary (t : raz_tree token M) : match rt_tree t with None => True | Some u => binary u end ->
  exists k0, forall k hist tab st cs h, k0 <= k -> uniq (rtnames t) -> w_ran (parse_inc eqD) hist tab -> tree_reads st h t ->
  exists y cs' tr tab' lg s, parse_inc eqD k h st cs tab = Ok (y, cs', tr, tab', lg) /\ parse_tree (astack_iface N) t = Ok s /\ astack_reads cs' y s /\
    wupto (rtnames t) cs cs'.
Proof.
  intros O. exists (match rt_tree t with None => 0 | Some x => t_size x end). intros k hist tab st cs h Hk Un Hs [_ Rd].
  pose proof (parse_ran_good _ _ Hs) as Gd. unfold rtnames in Un.
  assert (H0 : holds_in [] cs sa_new as_new).
  { exists (fun _ => None). split; [discriminate|]. split; [discriminate|]. split; [reflexivity|constructor]. }
  unfold parse_inc, parse_tree, rt_fold_lr_meta. unfold rtnames. destruct (srt_tree h) as [sh|], (rt_tree t) as [u|]; try contradiction.
  2: { do 6 eexists. split; [reflexivity|]. split; [reflexivity|]. split; [split; [reflexivity|constructor]|intros b _; reflexivity]. }
  cbn [otnames] in Un.
  destruct (pf_parse u O [] (Some (NStr "start")) sa_new as_new cs Un H0) as (a' & p' & cs' & P & Q & H & W).
  pose proof (reads_rep _ _ _ Rd) as Rp.
  destruct (run_answers eqD eq_num_cell eq_nums w_parse_node p_parse_node parse_node_simple k st sh u _ _ cs tab _ _ Rp Hk Gd P) as ([[[[y c] tr] tb'] lg] & E).
  destruct (run_did eqD eq_num_cell eq_nums w_parse_node p_parse_node parse_node_simple k st sh _ _ cs tab _ Gd E) as (_ & t1 & R1 & _ & _ & c1 & P1 & W1).
  pose proof (rep_one st t1 sh u R1 Rp). subst t1. rewrite P in P1. inv P1. exists y, c, tr, tb', lg, p'. split; [exact E|]. split; [exact Q|]. split.
  - destruct H as (sub & Ws & _ & H1 & H2). split; [exact H1|]. apply (reads_mono sub); [|exact H2]. intros b x Hb. rewrite W1. now apply Ws.
  - intros b D. rewrite W1. now apply W.
Qed.
Theorem next_parse free (t : raz_tree token M) : tree_reached free t -> NoDup (node_names t) ->
  exists k0, forall k hist tab st cs h, k0 <= k -> w_ran (parse_inc eqD) hist tab -> tree_reads st h t ->
  exists y cs' tr tab' lg s, parse_inc eqD k h st cs tab = Ok (y, cs', tr, tab', lg) /\ parse_tree (astack_iface N) t = Ok s /\ astack_reads cs' y s /\
    forall b, fst b <> path \/ ~ In (snd b) (node_names t) -> cs' b = cs b.
Proof.
  intros Re Nd. destruct (tree_reached_good _ Re) as [O _].
  destruct (next_parse_binary t) as (k0 & H).
  { destruct (rt_tree t) as [u|]; [exact (tree_ok_binary u O)|exact I]. }
  exists k0. intros k hist tab st cs h Hk Hs Rd. destruct (H k hist tab st cs h Hk (names_uniq _ Nd) Hs Rd) as (y & cs' & tr & tab' & lg & s & H1 & H2 & H3 & H4).
  exists y, cs', tr, tab', lg, s. split; [exact H1|]. split; [exact H2|]. split; [exact H3|].
  intros b D. apply H4. destruct D as [D|D]; [now left|right]. apply cnt_zero in D. revert D. unfold node_names, rtnames.
  destruct (rt_tree t); [|auto]. cbn [oinorder otnames]. now rewrite names_cnt.
Qed.
End Parse.

Theorem parse_reached {M} {RM : RazMeta token M} free (t : raz_tree token M) s : tree_reached free t -> parse_tree (astack_iface N) t = Ok s ->
  answers_as (astack_iface N) (fun _ => True) s (eval (map tok_of (elts (contents t)))).
Proof.
  intros Re H. destruct (parse_tree_sim (is_lifo_rel (astack_iface N) (fun _ => True) (as_lifo N)) t) as (a & Q & An).
  - destruct (rt_tree t) as [u|] eqn:Et; [|exact I]. pose proof (proj1 (tree_reached_good t Re)) as O. rewrite Et in O. exact (tree_ok_binary u O).
  - apply Forall_forall. intros [lv nm] _. exact I.
  - rewrite H in Q. injection Q as ->. exact An.
Qed.
