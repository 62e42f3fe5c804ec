(** * Proofs about whole programs over the store model. *)

From Verif Require Import Base BaseFacts SpecRaz StackModel AStackModel LevelTreeModel TreeCursorModel
  RazMetaModel RazModel RazScripts TreeSpec StoreModel StoreSpec StoreScripts TreeProofs CursorProofs StoreProofs
  StoreRaz.

Section Read.
Context {T A : Type} {TU : TreeUpdate A} {Nsp : here}.
Implicit Types (st : store T A) (s : stree A) (t : tree A).

Lemma rep_read t : forall st s, rep st s t -> forall k, t_size t <= k -> st_read k s st = Ok (t, st).
Proof.
  induction t as [lv nm d l r IHl IHr] using tree_induction. intros st s H k K.
  apply rep_eq in H. cbn [t_level t_name t_peek t_left t_right] in H.
  destruct H as (H1 & H2 & sl & sr & Lk & Hl & Hr). destruct k as [|k]; [simpl in K; lia|]. cbn [st_read].
  rewrite (s_bind_Ok _ _ _ _ _ (force_tree_Ok _ _ _ Lk)).
  assert (El : match sl with None => s_ret None | Some t1 => act x <- st_read k t1; s_ret (Some x) end st = Ok (l, st)).
  { destruct sl as [s1|], l as [t1|]; simpl in Hl; try contradiction; [|reflexivity].
    rewrite (s_bind_Ok _ _ _ _ _ (IHl _ _ Hl k ltac:(simpl in K; lia))). reflexivity. }
  assert (Er : match sr with None => s_ret None | Some t1 => act x <- st_read k t1; s_ret (Some x) end st = Ok (r, st)).
  { destruct sr as [s1|], r as [t1|]; simpl in Hr; try contradiction; [|reflexivity].
    rewrite (s_bind_Ok _ _ _ _ _ (IHr _ _ Hr k ltac:(simpl in K; lia))). reflexivity. }
  rewrite (s_bind_Ok _ _ _ _ _ El), (s_bind_Ok _ _ _ _ _ Er). rewrite H1, H2. reflexivity.
Qed.

Lemma read_ext k : forall st st' s t, (forall n, st' n = st n) ->
  st_read k s st = Ok (t, st) -> st_read k s st' = Ok (t, st').
Proof.
  induction k as [|k IH]; intros st st' s t X H; [discriminate|]. cbn [st_read] in *.
  unfold s_bind in H at 1. unfold s_bind at 1. unfold s_force_tree in *.
  assert (Lk : tree_look st' s = tree_look st s) by (destruct s; simpl; [reflexivity|now rewrite X]).
  rewrite Lk. destruct (tree_look st s) as [[[d l] r]|]; [|discriminate]. cbn [unwrap s_lift] in *.
  assert (G : forall (o : option (stree A)) (x : option (tree A)) st1,
    match o with None => s_ret None | Some t1 => act x <- st_read k t1; s_ret (Some x) end st = Ok (x, st1) ->
    st1 = st /\ match o with None => s_ret None | Some t1 => act x <- st_read k t1; s_ret (Some x) end st' = Ok (x, st')).
  { intros [s1|] x st1 G; [|injection G as <- <-; auto].
    unfold s_bind in G. destruct (st_read k s1 st) as [[x1 st2]| |] eqn:E1; try discriminate.
    injection G as <- <-.
    assert (st2 = st) as ->.
    { clear - E1. revert st s1 x1 st2 E1. induction k as [|k IH]; intros; [discriminate|]. cbn [st_read] in E1.
      unfold s_bind in E1 at 1. unfold s_force_tree in E1.
      destruct (tree_look st s1) as [[[d l] r]|]; [|discriminate]. cbn [unwrap s_lift] in E1.
      assert (G : forall (o : option (stree A)) st x st1,
        match o with None => s_ret None | Some t1 => act x <- st_read k t1; s_ret (Some x) end st = Ok (x, st1) -> st1 = st).
      { intros [s2|] st0 x st1 G; [|now injection G]. unfold s_bind in G.
        destruct (st_read k s2 st0) as [[x2 st3]| |] eqn:E2; try discriminate. injection G as _ <-.
        apply (IH _ _ _ _ E2). }
      unfold s_bind at 1 in E1.
      destruct (match l with None => s_ret None | Some t1 => act x <- st_read k t1; s_ret (Some x) end st)
        as [[x2 st3]| |] eqn:E2; try discriminate. apply G in E2. subst st3.
      unfold s_bind at 1 in E1.
      destruct (match r with None => s_ret None | Some t1 => act x <- st_read k t1; s_ret (Some x) end st)
        as [[x3 st4]| |] eqn:E3; try discriminate. apply G in E3. subst st4. now injection E1. }
    split; [reflexivity|]. unfold s_bind. now rewrite (IH _ _ _ _ X E1). }
  unfold s_bind in H at 1.
  destruct (match l with None => s_ret None | Some t1 => act x <- st_read k t1; s_ret (Some x) end st)
    as [[l' st1]| |] eqn:El; try discriminate. apply G in El. destruct El as [-> El].
  rewrite (s_bind_Ok _ _ _ _ _ El). unfold s_bind in H at 1.
  destruct (match r with None => s_ret None | Some t1 => act x <- st_read k t1; s_ret (Some x) end st)
    as [[r' st1]| |] eqn:Er; try discriminate. apply G in Er. destruct Er as [-> Er].
  rewrite (s_bind_Ok _ _ _ _ _ Er). injection H as <-. reflexivity.
Qed.
Lemma tnames_inorder t n : In n (tnames t) <-> exists lv d, In (lv, Some n, d) (inorder t).
Proof.
  induction t as [lv nm d l r IHl IHr] using tree_induction. rewrite tnames_eq.
  cbn [t_name t_left t_right inorder]. rewrite !in_app_iff.
  assert (G : forall o, (forall t0, o = Some t0 -> (In n (tnames t0) <-> exists lv d, In (lv, Some n, d) (inorder t0))) ->
    (In n (otnames o) <-> exists lv d, In (lv, Some n, d) (oinorder o))).
  { intros [t0|] X; simpl; [now apply X|]. split; [contradiction|intros (? & ? & [])]. }
  assert (Gl : In n (otnames l) <-> exists lv d, In (lv, Some n, d) (oinorder l)) by (apply G; intros; subst; exact IHl).
  assert (Gr : In n (otnames r) <-> exists lv d, In (lv, Some n, d) (oinorder r)) by (apply G; intros; subst; exact IHr).
  rewrite Gl, Gr. fold (oinorder l). fold (oinorder r). clear. split.
  - intros [H|[(a & b & H)|(a & b & H)]].
    + destruct nm as [m|]; [|contradiction]. destruct H as [->|[]]. exists lv, d. apply in_app_iff. right. left. reflexivity.
    + exists a, b. apply in_app_iff. auto.
    + exists a, b. apply in_app_iff. right. right. exact H.
  - intros (a & b & H). apply in_app_iff in H. destruct H as [H|[H|H]].
    + right. left. eauto.
    + injection H as _ -> _. left. left. reflexivity.
    + right. right. eauto.
Qed.
End Read.

Section Programs.
Context {E M : Type} {RM : RazMeta E M} {Nsp : here}.
Notation rdata := (tree_data E M).
Notation store := (store (level * list E) rdata).
Implicit Types (st : store).
Notation sval := (val (sraz_tree E M) (sraz_z E M)).
Notation pval := (val (raz_tree E M) (raz E M)).

Definition vrep st (s : sval) (v : pval) : Prop :=
  match s, v with
  | VTree a, VTree b => rtrep st a b
  | VRaz a, VRaz b => zrep st a b
  | VGone, VGone => True
  | _, _ => False
  end.
Definition vnames (v : pval) : list name :=
  match v with VTree t => rtnames t | VRaz z => zown z | VGone => [] end.
Definition prep st (sp : list sval) (p : list pval) : Prop := Forall2 (vrep st) sp p.
Definition pnames (p : list pval) : list name := flat_map vnames p.

Lemma vrep_frame L st st' s v : upto L st st' -> apart (vnames v) L -> vrep st s v -> vrep st' s v.
Proof.
  intros U D. destruct s, v; simpl in *; auto.
  - now apply (rtrep_frame L st).
  - now apply (zrep_frame L st).
Qed.
Lemma prep_frame L st st' sp p : upto L st st' -> apart (pnames p) L -> prep st sp p -> prep st' sp p.
Proof.
  intros U D H. induction H as [|s v sp p H1 H2 IH]; constructor; cbn [pnames flat_map] in D.
  - apply (vrep_frame L st); auto. names.
  - apply IH. fold (pnames p) in D. names.
Qed.
Lemma pnames_app p q : pnames (p ++ q) = pnames p ++ pnames q.
Proof. apply flat_map_app. Qed.

Lemma nth_prep st sp p i : prep st sp p ->
  match nth_error sp i, nth_error p i with
  | Some s, Some v => vrep st s v
  | None, None => True
  | _, _ => False
  end.
Proof. intros H. revert i. induction H as [|s v sp p H1 H2 IH]; intros [|i]; simpl; auto. apply IH. Qed.

Lemma put_prep st sp p i s v : prep st sp p -> vrep st s v -> prep st (put_at i s sp) (put_at i v p).
Proof.
  intros H V. revert i. induction H as [|s1 v1 sp p H1 H2 IH]; intros [|i]; simpl; constructor; auto.
  now apply IH.
Qed.
Lemma put_names i v p v0 : nth_error p i = Some v0 ->
  (forall n, cnt n (pnames p) = cnt n (vnames v0) + cnt n (pnames (put_at i VGone p))) /\
  (forall n, cnt n (pnames (put_at i v p)) = cnt n (vnames v) + cnt n (pnames (put_at i VGone p))).
Proof.
  revert i. induction p as [|x p IH]; intros [|i] H; simpl in H; try discriminate.
  - injection H as ->. split; intros n; cbn [put_at pnames flat_map vnames app]; rewrite ?cnt_app; reflexivity.
  - destruct (IH _ H) as [H1 H2]. cbn [put_at pnames flat_map]. fold (pnames p). fold (pnames (put_at i v p)).
    fold (pnames (put_at i VGone p)).
    split; intros n; rewrite !cnt_app; [rewrite (H1 n)|rewrite (H2 n)]; lia.
Qed.
Lemma put_sub i p v0 : nth_error p i = Some v0 -> sub (vnames v0 ++ pnames (put_at i VGone p)) (pnames p).
Proof. intros H n. rewrite cnt_app, (proj1 (put_names i VGone p v0 H) n). lia. Qed.
Lemma put_sub2 i v p v0 : nth_error p i = Some v0 -> sub (pnames (put_at i v p)) (vnames v ++ pnames (put_at i VGone p)).
Proof. intros H n. rewrite cnt_app, (proj2 (put_names i v p v0 H) n). lia. Qed.

Definition ppost st L st' sp' p' : Prop := prep st' sp' p' /\ upto L st st' /\ sub (pnames p') L.

Lemma ppost_same st L sp p : prep st sp p -> sub (pnames p) L -> ppost st L st sp p.
Proof. intros H S. split; [exact H|]. split; [apply upto_refl|exact S]. Qed.

(** Using up slot [i] and appending a new value. *)
Lemma ppost_move st st' L sp p i v0 s' v' : prep st sp p -> nth_error p i = Some v0 ->
  uniq (pnames p ++ L) -> upto (vnames v0 ++ L) st st' -> vrep st' s' v' -> sub (vnames v') (vnames v0 ++ L) ->
  ppost st (pnames p ++ L) st' (put_at i VGone sp ++ [s']) (put_at i VGone p ++ [v']).
Proof.
  intros H Nt Un U V S. pose proof (put_sub i p v0 Nt) as Ps. split; [|split].
  - apply Forall2_app; [|constructor; [exact V|constructor]].
    apply (prep_frame (vnames v0 ++ L) st); auto; [names|]. apply put_prep; [exact H|exact I].
  - eapply upto_sub; [|exact U]. names.
  - rewrite pnames_app. cbn [pnames flat_map]. fold (pnames (put_at i VGone p)). names.
Qed.
Lemma ppost_drop st L sp p i v0 : prep st sp p -> nth_error p i = Some v0 ->
  ppost st (pnames p ++ L) st (put_at i VGone sp) (put_at i VGone p).
Proof.
  intros H Nt. pose proof (put_sub i p v0 Nt) as Ps. apply ppost_same; [|names].
  apply put_prep; [exact H|exact I].
Qed.
Lemma ppost_put st st' L sp p i v0 s' v' : prep st sp p -> nth_error p i = Some v0 ->
  uniq (pnames p ++ L) -> upto (vnames v0 ++ L) st st' -> vrep st' s' v' -> sub (vnames v') (vnames v0 ++ L) ->
  ppost st (pnames p ++ L) st' (put_at i s' sp) (put_at i v' p).
Proof.
  intros H Nt Un U V S. pose proof (put_sub i p v0 Nt) as Ps. pose proof (put_sub2 i v' p v0 Nt) as Ps2.
  split; [|split].
  - assert (X : forall q sq, prep st sq q -> put_at i v' q = put_at i v' (put_at i VGone q) /\
                 put_at i s' sq = put_at i s' (put_at i VGone sq)).
    { clear. intros q sq H. revert i. induction H as [|a b sq q H1 H2 IH]; intros [|i]; simpl; auto.
      destruct (IH i) as [I1 I2]. split; f_equal; auto. }
    destruct (X _ _ H) as [-> ->]. apply put_prep; [|exact V].
    apply (prep_frame (vnames v0 ++ L) st); auto; [names|]. apply put_prep; [exact H|exact I].
  - eapply upto_sub; [|exact U]. names.
  - names.
Qed.
Lemma ppost_add st st' L sp p s' v' : prep st sp p ->
  uniq (pnames p ++ L) -> upto L st st' -> vrep st' s' v' -> sub (vnames v') L ->
  ppost st (pnames p ++ L) st' (sp ++ [s']) (p ++ [v']).
Proof.
  intros H Un U V S. split; [|split].
  - apply Forall2_app; [|constructor; [exact V|constructor]].
    apply (prep_frame L st); auto. names.
  - eapply upto_sub; [|exact U]. names.
  - rewrite pnames_app. cbn [pnames flat_map]. fold (pnames p). names.
Qed.

Lemma join_tree_sim st sa a sb b lev nm o : rtrep st sa a -> rtrep st sb b ->
  uniq (rtnames a ++ rtnames b ++ oroot nm) -> rt_join a lev nm b = Ok o ->
  exists so st', s_rt_join sa lev nm sb st = Ok (so, st') /\ upto (rtnames a ++ rtnames b ++ oroot nm) st st' /\
    match so, o with
    | Some s, Some t => rtrep st' s t /\ sub (rtnames t) (rtnames a ++ rtnames b ++ oroot nm)
    | None, None => st' = st
    | _, _ => False
    end.
Proof.
  intros [_ Ha] [_ Hb] Un Z. unfold rt_join in Z. unfold s_rt_join. unfold rtnames in *.
  destruct (rt_tree a) as [ta|], (srt_tree sa) as [sta|]; try contradiction;
    destruct (rt_tree b) as [tb|], (srt_tree sb) as [stb|]; try contradiction.
  2,3,4: injection Z as <-; exists None, st; split; [reflexivity|]; split; [apply upto_refl|reflexivity].
  apply bind_Ok in Z. destruct Z as (t & Z1 & Z). apply bind_Ok in Z. destruct Z as (r & Z2 & Z). injection Z as <-.
  unfold bin in Z1. apply bind_Ok in Z1. destruct Z1 as (td & Rb & Z1). rewrite tree_new_eq in Z1. simpl in Z1.
  injection Z1 as <-. simpl in Ha, Hb, Un.
  pose proof Ha as Ra. apply rep_eq in Ra. destruct Ra as (_ & _ & al & ar & Lka & _).
  pose proof Hb as Rb'. apply rep_eq in Rb'. destruct Rb' as (_ & _ & bl & br & Lkb & _).
  destruct (tree_new_rep st lev nm td (Some sta) (Some stb)) as (s & st' & E1 & U & F).
  destruct F as (F1 & F2 & F3).
  assert (R : rep st' s (Node lev nm td (Some ta) (Some tb))).
  { apply rep_eq. cbn [t_level t_name t_peek t_left t_right]. split; [exact F1|]. split; [exact F2|].
    do 2 eexists. split; [exact F3|]. simpl.
    split; [apply (rep_frame (oroot nm) st)|apply (rep_frame (oroot nm) st)]; auto; names. }
  destruct (mk_raz_tree_sim st' (Some s) (Some _) _ R Z2) as (rs & E2 & R2 & T2).
  exists (Some rs), st'. split; [|split].
  - unfold s_bin. unfold s_bind at 1. rewrite (s_bind_Ok _ _ _ _ _ (peek_Ok _ _ _ _ _ Lka)).
    rewrite (s_bind_Ok _ _ _ _ _ (peek_Ok _ _ _ _ _ Lkb)). unfold s_bind at 1, s_lift at 1. rewrite Rb.
    rewrite (s_bind_Ok _ _ _ _ _ E1). cbn [unwrap s_lift]. rewrite (s_bind_Ok _ _ _ _ _ E2). reflexivity.
  - eapply upto_sub; [|exact U]. names.
  - split; [exact R2|]. rewrite T2. cbn [otnames]. rewrite tnames_eq. cbn [t_name t_left t_right otnames]. names.
Qed.

(** Only values without names are cloned. *)
Definition clone_ok (p : list pval) (c : cmd E Index) : Prop :=
  match c with
  | CClone i => match nth_error p i with Some v => vnames v = [] | None => True end
  | _ => True
  end.
Lemma clone_ok_none p c : (is_clone c = true -> pnames p = []) -> clone_ok p c.
Proof.
  intros H. destruct c; simpl; auto. destruct (nth_error p i) as [v|] eqn:Ni; auto.
  specialize (H eq_refl). pose proof (put_sub i p v Ni) as S. rewrite H in S.
  destruct (vnames v) as [|n l]; auto. specialize (S n). unfold cnt in S. simpl in S.
  destruct (name_eq_dec n n); [lia|congruence].
Qed.

Lemma step_sim p c o p' : p_step p c = Ok (o, p') ->
  ev (fun k => forall st sp, prep st sp p -> clone_ok p c -> uniq (pnames p ++ c_names c) ->
    exists sp' st', s_step k sp c st = Ok ((o, sp'), st') /\ ppost st (pnames p ++ c_names c) st' sp' p').
Proof.
  intros Z.
  assert (Bad : forall q, Ok (CBad, p) = Ok (o, p') -> (forall k (sp : list sval), s_step k sp c = q k sp) ->
    (forall k st sp, prep st sp p -> q k sp st = Ok ((CBad, sp), st)) ->
    ev (fun k => forall st sp, prep st sp p -> clone_ok p c -> uniq (pnames p ++ c_names c) ->
    exists sp' st', s_step k sp c st = Ok ((o, sp'), st') /\ ppost st (pnames p ++ c_names c) st' sp' p')).
  { intros q Q1 Q2 Q3. injection Q1 as <- <-. apply ev_always. intros k st sp H Cl Un. exists sp, st.
    rewrite Q2, (Q3 _ _ _ H). split; [reflexivity|]. apply ppost_same; [exact H|names]. }
  destruct c as [|v| |i lev nm j|i x|i|i|i op|i|i|i]; cbn [p_step s_step c_names] in *.
  - apply bind_Ok in Z. destruct Z as (t & Z1 & Z). injection Z as <- <-.
    apply ev_always. intros k st sp H Cl Un.
    destruct (mk_raz_tree_sim st None None t I Z1) as (s & E1 & R & T).
    do 2 eexists. split; [unfold s_rt_empty; rewrite (s_bind_Ok _ _ _ _ _ E1); reflexivity|].
    apply ppost_add; auto; [apply upto_refl|]. simpl. unfold rtnames. rewrite T. simpl. names.
  - apply bind_Ok in Z. destruct Z as (ot & Z1 & Z). unfold rt_from_vec in Z1. unfold s_rt_from_vec.
    destruct v as [|e v].
    + injection Z1 as <-. injection Z as <- <-. apply ev_always. intros k st sp H Cl Un.
      do 2 eexists. split; [reflexivity|]. apply ppost_same; [exact H|names].
    + apply bind_Ok in Z1. destruct Z1 as (t & Lf & Z1). apply bind_Ok in Z1. destruct Z1 as (r & Mk & Z1).
      injection Z1 as <-. injection Z as <- <-. apply ev_always. intros k st sp H Cl Un.
      unfold leaf in Lf. rewrite tree_new_eq in Lf. simpl in Lf. injection Lf as <-.
      assert (R : rep st (TPut 0%N (Leaf (e :: v)) None None) (Node 0%N None (Leaf (e :: v)) None None)).
      { apply rep_eq. simpl. split; [reflexivity|]. split; [reflexivity|]. do 2 eexists. split; [reflexivity|].
        split; exact I. }
      destruct (mk_raz_tree_sim st (Some _) (Some _) r R Mk) as (s & E1 & R1 & T).
      do 2 eexists. split.
      * unfold s_leaf. cbn [s_tree_new]. unfold s_bind at 1 2. cbn [s_ret s_bind s_lift unwrap].
        unfold s_bind at 1. cbn [s_lift unwrap]. rewrite E1. reflexivity.
      * apply ppost_add; auto; [apply upto_refl|]. simpl. unfold rtnames. rewrite T. simpl. names.
  - injection Z as <- <-. apply ev_always. intros k st sp H Cl Un. do 2 eexists. split; [reflexivity|].
    apply ppost_add; auto; [apply upto_refl|apply raz_new_rep|]. simpl. unfold zown. simpl. names.
  - destruct (nth_error p i) as [[a|z|]|] eqn:Ni.
    2,3,4: apply (Bad (fun k sp => s_step k sp (CJoin i lev nm j))); auto; intros k st sp H; cbn [s_step];
      pose proof (nth_prep st sp p i H) as X; rewrite Ni in X;
      destruct (nth_error sp i) as [[?|?|]|]; try contradiction; reflexivity.
    destruct (nth_error (put_at i VGone p) j) as [[b|z|]|] eqn:Nj.
    2,3,4: apply (Bad (fun k sp => s_step k sp (CJoin i lev nm j))); auto; intros k st sp H; cbn [s_step];
      pose proof (nth_prep st sp p i H) as X; rewrite Ni in X;
      pose proof (nth_prep st _ _ j (put_prep st sp p i VGone VGone H I)) as Y; rewrite Nj in Y;
      destruct (nth_error sp i) as [[?|?|]|]; try contradiction;
      destruct (nth_error (put_at i VGone sp) j) as [[?|?|]|]; try contradiction; reflexivity.
    apply bind_Ok in Z. destruct Z as (ot & Jn & Z).
    apply ev_always. intros k st sp H Cl Un.
    pose proof (put_sub i p _ Ni) as Si. pose proof (put_sub j _ _ Nj) as Sj. cbn [vnames] in Si, Sj.
    change (names_of nm) with (oroot nm) in *.
    pose proof (nth_prep st sp p i H) as X. rewrite Ni in X.
    pose proof (put_prep st sp p i VGone VGone H I) as H2.
    pose proof (nth_prep st _ _ j H2) as Y. rewrite Nj in Y.
    pose proof (put_prep st _ _ j VGone VGone H2 I) as H3.
    destruct (nth_error sp i) as [[sa|?|]|]; try contradiction.
    destruct (nth_error (put_at i VGone sp) j) as [[sb|?|]|]; try contradiction. simpl in X, Y.
    destruct (join_tree_sim st sa a sb b lev nm ot X Y ltac:(names) Jn) as (so & st' & E1 & U & F).
    assert (H4 : prep st' (put_at j VGone (put_at i VGone sp)) (put_at j VGone (put_at i VGone p))).
    { eapply prep_frame; [exact U| |exact H3]. names. }
    rewrite (s_bind_Ok _ _ _ _ _ E1).
    destruct so as [s|], ot as [t|]; try contradiction; injection Z as <- <-.
    + destruct F as [F1 F2]. do 2 eexists. split; [reflexivity|]. split; [|split].
      * apply Forall2_app; [exact H4|]. constructor; [exact F1|constructor].
      * eapply upto_sub; [|exact U]. names.
      * rewrite pnames_app. cbn [pnames flat_map vnames]. fold (pnames (put_at j VGone (put_at i VGone p))). names.
    + subst st'. do 2 eexists. split; [reflexivity|]. apply ppost_same; [exact H4|]. names.
  - destruct (nth_error p i) as [[a|z|]|] eqn:Ni.
    2,3,4: apply (Bad (fun k sp => s_step k sp (CFocus i x))); auto; intros k st sp H; cbn [s_step];
      pose proof (nth_prep st sp p i H) as X; rewrite Ni in X;
      destruct (nth_error sp i) as [[?|?|]|]; try contradiction; reflexivity.
    apply bind_Ok in Z. destruct Z as (oz & Fo & Z).
    apply (ev_imp _ _ (focus_sim _ _ _ Fo)). intros k K st sp H Cl Un.
    pose proof (nth_prep st sp p i H) as X. rewrite Ni in X.
    destruct (nth_error sp i) as [[sa|?|]|]; try contradiction. simpl in X.
    destruct (K st sa X) as (osz & E1 & F). rewrite (s_bind_Ok _ _ _ _ _ E1).
    destruct osz as [sz|], oz as [z|]; try contradiction; injection Z as <- <-.
    + destruct F as [F1 F2]. do 2 eexists. split; [reflexivity|].
      eapply ppost_move; eauto; [apply upto_refl|]. simpl. names.
    + do 2 eexists. split; [reflexivity|]. eapply ppost_drop; eauto.
  - destruct (nth_error p i) as [[a|z|]|] eqn:Ni.
    2,3,4: apply (Bad (fun k sp => s_step k sp (CFocusLeft i))); auto; intros k st sp H; cbn [s_step];
      pose proof (nth_prep st sp p i H) as X; rewrite Ni in X;
      destruct (nth_error sp i) as [[?|?|]|]; try contradiction; reflexivity.
    apply bind_Ok in Z. destruct Z as (z & Fo & Z). injection Z as <- <-.
    apply (ev_imp _ _ (focus_left_sim _ _ Fo)). intros k K st sp H Cl Un.
    pose proof (nth_prep st sp p i H) as X. rewrite Ni in X.
    destruct (nth_error sp i) as [[sa|?|]|]; try contradiction. simpl in X.
    destruct (K st sa X) as (sz & E1 & F1 & F2). rewrite (s_bind_Ok _ _ _ _ _ E1).
    do 2 eexists. split; [reflexivity|].
    eapply ppost_move; eauto; [apply upto_refl|]. simpl. names.
  - destruct (nth_error p i) as [[a|z|]|] eqn:Ni.
    1,3,4: apply (Bad (fun k sp => s_step k sp (CUnfocus i))); auto; intros k st sp H; cbn [s_step];
      pose proof (nth_prep st sp p i H) as X; rewrite Ni in X;
      destruct (nth_error sp i) as [[?|?|]|]; try contradiction; reflexivity.
    apply bind_Ok in Z. destruct Z as (t & Fo & Z). injection Z as <- <-.
    apply (ev_imp _ _ (unfocus_sim _ _ Fo)). intros k K st sp H Cl Un.
    pose proof (nth_prep st sp p i H) as X. rewrite Ni in X. pose proof (put_sub i p _ Ni) as Si. cbn [vnames] in Si.
    destruct (nth_error sp i) as [[sa|sz|]|]; try contradiction. simpl in X.
    destruct (K st sz X ltac:(names)) as (s & st' & E1 & F1 & U & F2). rewrite (s_bind_Ok _ _ _ _ _ E1).
    do 2 eexists. split; [reflexivity|].
    eapply ppost_move; eauto; simpl; [eapply upto_sub; [|exact U]|]; names.
  - destruct (nth_error p i) as [[a|z|]|] eqn:Ni.
    1,3,4: apply (Bad (fun k sp => s_step k sp (CStep i op))); auto; intros k st sp H; cbn [s_step];
      pose proof (nth_prep st sp p i H) as X; rewrite Ni in X;
      destruct (nth_error sp i) as [[?|?|]|]; try contradiction; reflexivity.
    apply bind_Ok in Z. destruct Z as ([x z'] & Fo & Z). injection Z as <- <-.
    apply (ev_imp _ _ (zstep_sim _ _ _ _ Fo)). intros k K st sp H Cl Un.
    pose proof (nth_prep st sp p i H) as X. rewrite Ni in X. pose proof (put_sub i p _ Ni) as Si. cbn [vnames] in Si.
    destruct (nth_error sp i) as [[sa|sz|]|]; try contradiction. simpl in X.
    change (match op with OArchL _ nm | OArchR _ nm => names_of nm ++ names_of (point_name nm) | _ => [] end)
      with (fresh op) in *.
    destruct (K st sz X ltac:(names)) as (s & st' & E1 & F1 & U & F2). rewrite (s_bind_Ok _ _ _ _ _ E1).
    do 2 eexists. split; [reflexivity|]. eapply ppost_put; eauto.
  - destruct (nth_error p i) as [[a|z|]|] eqn:Ni.
    2,3,4: apply (Bad (fun k sp => s_step k sp (CRead i))); auto; intros k st sp H; cbn [s_step];
      pose proof (nth_prep st sp p i H) as X; rewrite Ni in X;
      destruct (nth_error sp i) as [[?|?|]|]; try contradiction; reflexivity.
    injection Z as <- <-. exists (ot_size (rt_tree a)). intros k K st sp H Cl Un.
    pose proof (nth_prep st sp p i H) as X. rewrite Ni in X.
    destruct (nth_error sp i) as [[sa|sz|]|]; try contradiction. destruct X as [X1 X2].
    exists sp, st. split; [|apply ppost_same; [exact H|names]]. rewrite X1.
    destruct (srt_tree sa) as [s|], (rt_tree a) as [t|]; try contradiction; [|reflexivity].
    unfold s_bind at 1 2. rewrite (rep_read t st s X2 k K). reflexivity.
  - destruct (nth_error p i) as [v|] eqn:Ni.
    2: apply (Bad (fun k sp => s_step k sp (CClone i))); auto; intros k st sp H; cbn [s_step];
      pose proof (nth_prep st sp p i H) as X; rewrite Ni in X;
      destruct (nth_error sp i) as [[?|?|]|]; try contradiction; reflexivity.
    injection Z as <- <-. apply ev_always. intros k st sp H Cl Un.
    cbn [clone_ok] in Cl. rewrite Ni in Cl.
    pose proof (nth_prep st sp p i H) as X. rewrite Ni in X. pose proof (put_sub i p _ Ni) as Si.
    destruct (nth_error sp i) as [s|]; try contradiction.
    exists (sp ++ [s]), st. split; [reflexivity|]. apply ppost_add; auto; [apply upto_refl|]. rewrite Cl. names.
  - destruct (nth_error p i) as [v|] eqn:Ni.
    2: apply (Bad (fun k sp => s_step k sp (CDrop i))); auto; intros k st sp H; cbn [s_step];
      pose proof (nth_prep st sp p i H) as X; rewrite Ni in X;
      destruct (nth_error sp i) as [[?|?|]|]; try contradiction; reflexivity.
    injection Z as <- <-. apply ev_always. intros k st sp H Cl Un.
    pose proof (nth_prep st sp p i H) as X. rewrite Ni in X.
    destruct (nth_error sp i) as [s|]; try contradiction.
    exists (put_at i VGone sp), st. split; [reflexivity|]. eapply ppost_drop; eauto.
Qed.

Lemma sub_nil l : sub l [] -> l = [].
Proof.
  intros H. destruct l as [|n l]; [reflexivity|]. specialize (H n). unfold cnt in H. simpl in H.
  destruct (name_eq_dec n n); [lia|congruence].
Qed.

Lemma run_sim cs : forall p os p', p_run p cs = Ok (os, p') ->
  ev (fun k => forall st sp, prep st sp p ->
    (existsb is_clone cs = true -> pnames p ++ flat_map c_names cs = []) ->
    uniq (pnames p ++ flat_map c_names cs) ->
    exists sp' st', s_run k sp cs st = Ok ((os, sp'), st') /\ ppost st (pnames p ++ flat_map c_names cs) st' sp' p').
Proof.
  induction cs as [|c cs IH]; intros p os p' Z; cbn [p_run s_run flat_map existsb] in *.
  - injection Z as <- <-. apply ev_always. intros k st sp H Cl Un. exists sp, st. split; [reflexivity|].
    apply ppost_same; [exact H|names].
  - apply bind_Ok in Z. destruct Z as ([o p1] & Z1 & Z). apply bind_Ok in Z. destruct Z as ([os2 p2] & Z2 & Z).
    injection Z as <- <-.
    apply (ev_imp _ _ (ev_and _ _ (step_sim _ _ _ _ Z1) (IH _ _ _ Z2))). intros k [K1 K2] st sp H Cl Un.
    destruct (K1 st sp H) as (sp1 & st1 & E1 & R1 & U1 & S1).
    { apply clone_ok_none. intros C. rewrite C in Cl. specialize (Cl eq_refl). now apply app_eq_nil in Cl. }
    { names. }
    destruct (K2 st1 sp1 R1) as (sp2 & st2 & E2 & R2 & U2 & S2).
    { intros C. rewrite C, orb_true_r in Cl. specialize (Cl eq_refl). apply sub_nil. rewrite <- Cl. names. }
    { names. }
    exists sp2, st2. split; [rewrite (s_bind_Ok _ _ _ _ _ E1), (s_bind_Ok _ _ _ _ _ E2); reflexivity|].
    split; [exact R2|]. split; [|names].
    apply (upto_trans _ _ st1); [eapply upto_sub; [|exact U1]|eapply upto_sub; [|exact U2]]; names.
Qed.

(** ** The same with names checked step by step against the values in use *)
Lemma tree_in_use (o : option (tree rdata)) n : In n (otnames o) -> in_tree o n.
Proof.
  destruct o as [t|]; [|contradiction]. unfold in_tree, otnames. cbn [oinorder]. apply tnames_inorder.
Qed.
Lemma cursor_in_use (c : cursor rdata) n : In n (own c) -> in_cursor c n.
Proof.
  unfold own, fown. rewrite !in_app_iff. unfold in_cursor. intros [H|[H|H]].
  - left. now apply tree_in_use.
  - right. left. induction (l_forest c) as [|[b t] f IH]; [contradiction|]. cbn [lown] in H.
    rewrite !in_app_iff in H. destruct H as [H|[H|H]].
    + exists b, t. split; [now left|]. left. destruct (t_name t); [|contradiction]. destruct H as [->|[]]. reflexivity.
    + exists b, t. split; [now left|]. right. now apply tree_in_use.
    + destruct (IH H) as (b1 & t1 & I1 & H1). exists b1, t1. split; [now right|exact H1].
  - right. right. induction (r_forest c) as [|[b t] f IH]; [contradiction|]. cbn [rown] in H.
    rewrite !in_app_iff in H. destruct H as [H|[H|H]].
    + exists b, t. split; [now left|]. left. destruct (t_name t); [|contradiction]. destruct H as [->|[]]. reflexivity.
    + exists b, t. split; [now left|]. right. now apply tree_in_use.
    + destruct (IH H) as (b1 & t1 & I1 & H1). exists b1, t1. split; [now right|exact H1].
Qed.
Lemma stack_in_use (a : astack E level) n : In n (anames a) -> in_stack a n.
Proof.
  assert (G : forall (h : head (level * list E)) m, In m (hnames h) -> In (Some m) (point_names h)).
  { fix IH 1. intros [nm x nx] m. cbn [hnames point_names]. rewrite in_app_iff. intros [H|H].
    - left. destruct nm; [|contradiction]. destruct H as [->|[]]. reflexivity.
    - right. destruct nx as [h1|]; [now apply IH|contradiction]. }
  unfold anames, snames, in_stack. rewrite in_app_iff, in_map_iff.
  intros [H|(m & <- & H)]; destruct (archived a) as [h|]; try contradiction.
  - exists h, n. auto.
  - exists h, m. split; [reflexivity|]. split; [now apply G|]. right. reflexivity.
Qed.
Lemma value_in_use v n : In n (vnames v) -> in_use v n.
Proof.
  destruct v as [t|z|]; simpl; [apply tree_in_use| |auto]. unfold zown. rewrite !in_app_iff.
  intros [H|[H|[H|H]]]; auto using cursor_in_use, stack_in_use.
Qed.

Lemma names_ok_uniq p c : names_ok p c -> uniq (pnames p) -> uniq (pnames p ++ c_names c) /\ clone_ok p c.
Proof.
  intros (N1 & N2 & N3) Un. split.
  - apply uniq_NoDup in N1. intros n. rewrite cnt_app.
    destruct (in_dec name_eq_dec n (c_names c)) as [I1|I1].
    + assert (X : ~ In n (pnames p)).
      { intros X. apply in_flat_map in X. destruct X as (v & V1 & V2). exact (N2 n v I1 V1 (value_in_use v n V2)). }
      apply cnt_zero in X. rewrite X. apply N1.
    + apply cnt_zero in I1. rewrite I1. specialize (Un n). lia.
  - destruct c; simpl; auto. destruct (nth_error p i) as [v|] eqn:Ni; auto.
    destruct (vnames v) as [|n l] eqn:V; auto. exfalso. apply (N3 i v n eq_refl Ni). apply value_in_use.
    rewrite V. now left.
Qed.

Lemma live_run_sim cs : forall p os p', p_run p cs = Ok (os, p') -> names_ok_run p cs ->
  ev (fun k => forall st sp, prep st sp p -> uniq (pnames p) ->
    exists sp' st', s_run k sp cs st = Ok ((os, sp'), st') /\ ppost st (pnames p ++ flat_map c_names cs) st' sp' p').
Proof.
  induction cs as [|c cs IH]; intros p os p' Z Ok_; cbn [p_run s_run flat_map names_ok_run] in *.
  - injection Z as <- <-. apply ev_always. intros k st sp H Un. exists sp, st. split; [reflexivity|].
    apply ppost_same; [exact H|names].
  - apply bind_Ok in Z. destruct Z as ([o p1] & Z1 & Z). apply bind_Ok in Z. destruct Z as ([os2 p2] & Z2 & Z).
    injection Z as <- <-. destruct Ok_ as [N1 N2]. rewrite Z1 in N2.
    apply (ev_imp _ _ (ev_and _ _ (step_sim _ _ _ _ Z1) (IH _ _ _ Z2 N2))). intros k [K1 K2] st sp H Un.
    destruct (names_ok_uniq p c N1 Un) as [Un1 Cl].
    destruct (K1 st sp H Cl Un1) as (sp1 & st1 & E1 & R1 & U1 & S1).
    destruct (K2 st1 sp1 R1) as (sp2 & st2 & E2 & R2 & U2 & S2); [names|].
    exists sp2, st2. split; [rewrite (s_bind_Ok _ _ _ _ _ E1), (s_bind_Ok _ _ _ _ _ E2); reflexivity|].
    split; [exact R2|]. split; [|names].
    apply (upto_trans _ _ st1); [eapply upto_sub; [|exact U1]|eapply upto_sub; [|exact U2]]; names.
Qed.
End Programs.

(** ** Stacks *)
Section StackPrograms.
Context {T A : Type} {Nsp : here}.
Notation store := (store T A).
Implicit Types (st : store).
Notation slist := (list (option name * T)).

Definition lnames (l : slist) : list name := flat_map (fun x => names_of (fst x)) l.

Fixpoint srep st (so : option (shead T)) (l : slist) {struct l} : Prop :=
  match l with
  | [] => so = None
  | (nm, e) :: r => exists s sn, so = Some s /\ sh_name s = nm /\ head_look st s = Some (e, sn) /\ srep st sn r
  end.

Lemma srep_write st n c l : forall so, ~ In n (lnames l) -> srep st so l -> srep (write st (path, n) c) so l.
Proof.
  induction l as [|[nm e] r IH]; intros so Nn H; [exact H|]. simpl in H. destruct H as (s & sn & -> & H1 & H2 & H3).
  cbn [lnames flat_map fst] in Nn. rewrite in_app_iff in Nn.
  exists s, sn. split; [reflexivity|]. split; [exact H1|]. split; [|apply IH; tauto].
  destruct s as [e' n'|[q m]]; [exact H2|]. simpl in *. subst nm. unfold write.
  destruct (loc_eq_dec (q, m) (path, n)) as [D|D]; [injection D as _ ->; simpl in Nn; tauto|exact H2].
Qed.

Lemma take_srep st l : forall so n, srep st so l -> ss_take n so st = Ok (firstn n (map snd l), st).
Proof.
  induction l as [|[nm e] r IH]; intros so n H; simpl in H.
  - subst so. destruct n; reflexivity.
  - destruct H as (s & sn & -> & H1 & H2 & H3). destruct n as [|n]; [reflexivity|]. cbn [ss_take ss_iter_next].
    unfold s_bind at 1. rewrite (s_bind_Ok _ _ _ _ _ (force_head_Ok _ _ _ H2)). cbn [s_ret].
    rewrite (s_bind_Ok _ _ _ _ _ (IH _ n H3)). reflexivity.
Qed.

Definition kprep st (sp : list (option (shead T))) (p : list slist) : Prop := Forall2 (srep st) sp p.
Definition kpool (p : list slist) : list name := flat_map lnames p.

Lemma kprep_nth st sp p i : kprep st sp p ->
  match nth_error sp i, nth_error p i with
  | Some s, Some v => srep st s v
  | None, None => True
  | _, _ => False
  end.
Proof. intros H. revert i. induction H as [|s v sp p H1 H2 IH]; intros [|i]; simpl; auto. apply IH. Qed.
Lemma kprep_write st n c sp p : ~ In n (kpool p) -> kprep st sp p -> kprep (write st (path, n) c) sp p.
Proof.
  intros Nn H. induction H as [|s v sp p H1 H2 IH]; constructor; cbn [kpool flat_map] in Nn; rewrite in_app_iff in Nn.
  - apply srep_write; [tauto|exact H1].
  - apply IH. tauto.
Qed.
Lemma lnames_pool p i l : nth_error p i = Some l -> incl (lnames l) (kpool p).
Proof. intros H x X. apply in_flat_map. exists l. split; [now apply nth_error_In in H|exact X]. Qed.

Lemma k_step_sim st sp p c : kprep st sp p -> (forall n, In n (k_names c) -> ~ In n (kpool p)) ->
  exists sp' st', k_step sp c st = Ok ((fst (kl_step p c), sp'), st') /\ kprep st' sp' (snd (kl_step p c)) /\
    (forall a, fst a <> path \/ ~ In (snd a) (k_names c) -> st' a = st a) /\ incl (kpool (snd (kl_step p c))) (k_names c ++ kpool p).
Proof.
  intros H Fr. pose proof (fun i => kprep_nth st sp p i H) as Nt.
  assert (Same : forall q : list slist, q = p -> incl (kpool q) (k_names c ++ kpool p))
    by (intros q ->; apply incl_appr, incl_refl).
  destruct c as [|i nm e|i|i|i|i|n i]; cbn [k_step kl_step k_names] in *; try specialize (Nt i).
  - do 2 eexists. split; [reflexivity|]. cbn [snd fst]. split; [|split; [auto|]].
    + apply Forall2_app; [exact H|]. constructor; [reflexivity|constructor].
    + unfold kpool. rewrite flat_map_app. simpl. rewrite app_nil_r. apply incl_refl.
  - destruct (nth_error sp i) as [s|], (nth_error p i) as [l|] eqn:Ni; try contradiction.
    2:{ do 2 eexists. split; [reflexivity|]. cbn [fst snd]. auto. }
    assert (Inc : incl (kpool (p ++ [(nm, e) :: l])) (names_of nm ++ kpool p)).
    { unfold kpool. rewrite flat_map_app. fold (kpool p). intros x X. apply in_app_iff in X. apply in_app_iff.
      destruct X as [X|X]; [auto|]. cbn [flat_map lnames fst] in X. rewrite app_nil_r in X. apply in_app_iff in X.
      destruct X as [X|X]; [auto|]. right. now apply (lnames_pool _ _ _ Ni). }
    cbn [fst snd]. unfold ss_push, s_push_onto. destruct nm as [n|]; cbn [names_of] in *.
    + assert (Nn : ~ In n (kpool p)) by (apply Fr; simpl; auto).
      do 2 eexists. split; [reflexivity|]. split; [|split; [|exact Inc]].
      * apply Forall2_app; [now apply kprep_write|]. constructor; [|constructor].
        exists (HCell (path, n)), s. split; [reflexivity|]. split; [reflexivity|]. split; [simpl; now rewrite write_same|].
        apply srep_write; [|exact Nt]. intros X. apply Nn. now apply (lnames_pool _ _ _ Ni).
      * intros [q m] Hm. unfold write. destruct (loc_eq_dec (q, m) (path, n)) as [D|D]; [|reflexivity].
        injection D as -> ->. simpl in Hm. tauto.
    + do 2 eexists. split; [reflexivity|]. split; [|split; [auto|exact Inc]].
      apply Forall2_app; [exact H|]. constructor; [|constructor].
      exists (HPut e s), s. auto.
  - destruct (nth_error sp i) as [s|], (nth_error p i) as [l|] eqn:Ni; try contradiction.
    2:{ do 2 eexists. split; [reflexivity|]. cbn [fst snd]. auto. }
    destruct l as [|[nm e] r]; simpl in Nt.
    + subst s. do 2 eexists. split; [reflexivity|]. cbn [fst snd]. auto.
    + destruct Nt as (h & sn & -> & H1 & H2 & H3). do 2 eexists. split; [|split; [|split; [intros; reflexivity|]]].
      * cbn [ss_pull]. unfold s_bind at 1. rewrite (s_bind_Ok _ _ _ _ _ (force_head_Ok _ _ _ H2)). reflexivity.
      * cbn [snd]. apply Forall2_app; [exact H|]. constructor; [exact H3|constructor].
      * cbn [snd]. unfold kpool. rewrite flat_map_app. fold (kpool p). intros x X. apply in_app_iff in X.
        destruct X as [X|X]; [auto|]. cbn [flat_map] in X. rewrite app_nil_r in X.
        apply (lnames_pool _ _ _ Ni). cbn [lnames flat_map]. apply in_app_iff. auto.
  - destruct (nth_error sp i) as [s|], (nth_error p i) as [l|] eqn:Ni; try contradiction.
    2:{ do 2 eexists. split; [reflexivity|]. cbn [fst snd]. auto. }
    destruct l as [|[nm e] r]; simpl in Nt.
    + subst s. do 2 eexists. split; [reflexivity|]. cbn [fst snd]. auto.
    + destruct Nt as (h & sn & -> & H1 & H2 & H3). exists sp, st. split; [|cbn [fst snd]; auto].
      cbn [ss_peek]. unfold s_bind at 1. rewrite (s_bind_Ok _ _ _ _ _ (force_head_Ok _ _ _ H2)). reflexivity.
  - destruct (nth_error sp i) as [s|], (nth_error p i) as [l|] eqn:Ni; try contradiction.
    2:{ do 2 eexists. split; [reflexivity|]. cbn [fst snd]. auto. }
    exists sp, st. split; [|cbn [fst snd]; auto].
    destruct l as [|[nm e] r]; simpl in Nt; [now subst s|].
    destruct Nt as (h & sn & -> & H1 & _). unfold s_ret. cbn [fst]. repeat f_equal. rewrite <- H1. now destruct h.
  - destruct (nth_error sp i) as [s|], (nth_error p i) as [l|] eqn:Ni; try contradiction.
    2:{ do 2 eexists. split; [reflexivity|]. cbn [fst snd]. auto. }
    exists sp, st. split; [|cbn [fst snd]; auto].
    destruct l as [|[nm e] r]; simpl in Nt; [now subst s|].
    destruct Nt as (h & sn & -> & H1 & _). reflexivity.
  - destruct (nth_error sp i) as [s|], (nth_error p i) as [l|] eqn:Ni; try contradiction.
    2:{ do 2 eexists. split; [reflexivity|]. cbn [fst snd]. auto. }
    exists sp, st. split; [|cbn [fst snd]; auto].
    rewrite (s_bind_Ok _ _ _ _ _ (take_srep _ _ _ n Nt)). reflexivity.
Qed.

Lemma NoDup_app_inv (a b : list name) : NoDup (a ++ b) -> NoDup a /\ NoDup b /\ forall n, In n a -> ~ In n b.
Proof.
  intros H. rewrite <- !uniq_NoDup in *. split; [names|]. split; [names|].
  intros n Ha Hb. apply cnt_In in Ha, Hb. specialize (H n). rewrite cnt_app in H. lia.
Qed.

Lemma k_run_sim cs : forall st sp p, kprep st sp p -> NoDup (flat_map k_names cs) ->
  (forall n, In n (flat_map k_names cs) -> ~ In n (kpool p)) ->
  exists sp' st', k_run sp cs st = Ok ((fst (kl_run p cs), sp'), st') /\
    (forall a, fst a <> path \/ ~ In (snd a) (flat_map k_names cs) -> st' a = st a).
Proof.
  induction cs as [|c cs IH]; intros st sp p H Nd Fr; cbn [k_run kl_run flat_map] in *.
  - exists sp, st. auto.
  - destruct (k_step_sim st sp p c H) as (sp1 & st1 & E1 & H1 & U1 & I1).
    { intros n Hn. apply Fr. apply in_app_iff. auto. }
    destruct (kl_step p c) as [x p1]. cbn [fst snd] in *.
    apply NoDup_app_inv in Nd. destruct Nd as (N1 & N2 & N3).
    destruct (IH st1 sp1 p1 H1 N2) as (sp2 & st2 & E2 & U2).
    { intros n Hn X. apply I1 in X. apply in_app_iff in X. destruct X as [X|X]; [now apply (N3 n)|].
      apply (Fr n); [apply in_app_iff; auto|exact X]. }
    destruct (kl_run p1 cs) as [xs p2]. cbn [fst] in *.
    exists sp2, st2. split; [rewrite (s_bind_Ok _ _ _ _ _ E1), (s_bind_Ok _ _ _ _ _ E2); reflexivity|].
    intros a Hn. rewrite in_app_iff in Hn. rewrite U2, U1; tauto.
Qed.
End StackPrograms.

(** ** What is left of older handles *)
Section Older.
Context {T A : Type} {TU : TreeUpdate A} {Nsp : here}.
Implicit Types (st : store T A) (s : stree A) (t : tree A).

Lemma read_rep k : forall st s t st1, st_read k s st = Ok (t, st1) -> st1 = st /\ rep st s t.
Proof.
  induction k as [|k IH]; intros st s t st1 H; [discriminate|]. cbn [st_read] in H.
  unfold s_bind in H at 1. unfold s_force_tree in H.
  destruct (tree_look st s) as [[[d l] r]|] eqn:Lk; [|discriminate]. cbn [unwrap s_lift] in H.
  assert (G : forall (o : option (stree A)) st x st1,
    match o with None => s_ret None | Some t1 => act x <- st_read k t1; s_ret (Some x) end st = Ok (x, st1) ->
    st1 = st /\ orep st o x).
  { intros [s2|] st0 x st2 G; [|injection G as <- <-; simpl; auto]. unfold s_bind in G.
    destruct (st_read k s2 st0) as [[x2 st3]| |] eqn:E2; try discriminate. injection G as <- <-.
    apply (IH _ _ _ _ E2). }
  unfold s_bind at 1 in H.
  destruct (match l with None => s_ret None | Some t1 => act x <- st_read k t1; s_ret (Some x) end st)
    as [[x2 st3]| |] eqn:E2; try discriminate. apply G in E2. destruct E2 as [-> E2].
  unfold s_bind at 1 in H.
  destruct (match r with None => s_ret None | Some t1 => act x <- st_read k t1; s_ret (Some x) end st)
    as [[x3 st4]| |] eqn:E3; try discriminate. apply G in E3. destruct E3 as [-> E3].
  injection H as <- <-. split; [reflexivity|]. apply rep_eq. cbn [t_level t_name t_peek t_left t_right].
  split; [reflexivity|]. split; [reflexivity|]. exists l, r. auto.
Qed.

(** A handle none of whose nodes has a changed name reads as before. *)
Lemma reads_frame st st' (L : list name) s t :
  (forall a, fst a <> path \/ ~ In (snd a) L -> st' a = st a) -> reads st s t ->
  (forall lv n d, In (lv, Some n, d) (inorder t) -> ~ In n L) -> reads st' s t.
Proof.
  intros U [k H] D. apply read_rep in H. destruct H as [_ H].
  exists (t_size t). apply rep_read; [|lia].
  apply (rep_frame L st); [|  |exact H].
  - intros a [N|N]; apply U; [left; exact N|right; now apply cnt_zero].
  - intros n. destruct (in_dec name_eq_dec n (tnames t)) as [I|I]; [|left; now apply cnt_zero].
    right. apply cnt_zero. apply tnames_inorder in I. destruct I as (lv & d & I). eauto.
Qed.

Lemma take_frame st st' : (forall a, st' a = st a) ->
  forall k so l st1, ss_take k so st = Ok (l, st1) -> st1 = st /\ ss_take k so st' = Ok (l, st').
Proof.
  intros U k. induction k as [|k IH]; intros so l st1 H; cbn [ss_take] in *.
  - injection H as <- <-. auto.
  - destruct so as [h|]; [|injection H as <- <-; auto]. cbn [ss_iter_next] in *.
    unfold s_bind, s_force_head in *.
    assert (X : head_look st' h = head_look st h) by (destruct h; simpl; [reflexivity|now rewrite U]).
    rewrite X. destruct (head_look st h) as [[e nx]|]; [|discriminate]. cbn [unwrap s_lift s_ret] in *.
    destruct (ss_take k nx st) as [[r st2]| |] eqn:R; try discriminate. injection H as <- <-.
    destruct (IH _ _ _ R) as [-> R']. rewrite R'. auto.
Qed.
End Older.

Section Whole.
Context {E M : Type} {RM : RazMeta E M} {Nsp : here}.

(** Programs that use each name once agree with the pure reading. *)
Lemma run_agrees (cs : list (cmd E Index)) os p' :
  p_run [] cs = Ok (os, p') -> NoDup (flat_map c_names cs) ->
  (existsb is_clone cs = true -> flat_map c_names cs = []) ->
  exists k0, forall k st, k0 <= k -> exists sp' st',
    s_run k [] cs st = Ok ((os, sp'), st') /\ 
    (forall a, fst a <> path \/ ~ In (snd a) (flat_map c_names cs) -> st' a = st a).
Proof.
  intros H Nd Cl. destruct (run_sim cs [] os p' H) as [k0 K]. exists k0. intros k st Hk.
  destruct (K k Hk st []) as (sp' & st' & R & _ & U & _).
  - constructor.
  - exact Cl.
  - apply uniq_NoDup. exact Nd.
  - exists sp', st'. split; [exact R|]. intros a [N|N]; apply U; [left; exact N|right; now apply cnt_zero].
Qed.

Lemma live_run_agrees (cs : list (cmd E Index)) os p' :
  p_run [] cs = Ok (os, p') -> names_ok_run [] cs ->
  exists k0, forall k st, k0 <= k -> exists sp' st',
    s_run k [] cs st = Ok ((os, sp'), st') /\ 
    (forall a, fst a <> path \/ ~ In (snd a) (flat_map c_names cs) -> st' a = st a).
Proof.
  intros H Nd. destruct (live_run_sim cs [] os p' H Nd) as [k0 K]. exists k0. intros k st Hk.
  destruct (K k Hk st []) as (sp' & st' & R & _ & U & _).
  - constructor.
  - intros n. apply Nat.le_0_l.
  - exists sp', st'. split; [exact R|]. intros a [N|N]; apply U; [left; exact N|right; now apply cnt_zero].
Qed.

Lemma run_unnamed (cs : list (cmd E Index)) os p' :
  p_run [] cs = Ok (os, p') -> flat_map c_names cs = [] ->
  exists k0, forall k st, k0 <= k -> exists sp' st',
    s_run k [] cs st = Ok ((os, sp'), st') /\ (forall a, st' a = st a) /\
    (forall h t, reads st h t -> reads st' h t) /\
    (forall j h l, ss_take j h st = Ok (l, st) -> ss_take j h st' = Ok (l, st')).
Proof.
  intros H Nn. destruct (run_agrees cs os p' H) as [k0 K]; [rewrite Nn; constructor|auto|].
  exists k0. intros k st Hk. destruct (K k st Hk) as (sp' & st' & R & U). rewrite Nn in U.
  exists sp', st'. split; [exact R|]. assert (U' : forall a, st' a = st a) by (intros a; apply U; auto). split; [exact U'|]. split.
  - intros h t Hr. apply (reads_frame st st' [] h t U Hr). auto.
  - intros j h l Ht. now apply (take_frame st st' U' j h l st Ht).
Qed.
End Whole.

Section WholeStack.
Context {T A : Type} {Nsp : here}.

Lemma k_run_agrees (cs : list (kcmd T)) (st : store T A) : NoDup (flat_map k_names cs) ->
  exists sp' st', k_run [] cs st = Ok ((fst (kl_run [] cs), sp'), st') /\
    (forall a, fst a <> path \/ ~ In (snd a) (flat_map k_names cs) -> st' a = st a).
Proof. intros Nd. apply k_run_sim; auto. constructor. Qed.

(** An unnamed push or any read leaves the store alone, whatever the pool holds. *)
Lemma k_step_unnamed c (sp sp' : list (option (shead T))) (st st' : store T A) o :
  k_names c = [] -> k_step sp c st = Ok ((o, sp'), st') -> st' = st.
Proof.
  assert (F : forall X (f : T * option (shead T) -> sm T A X) h st y st1,
    (forall p, f p st = Ok (y, st1) -> st1 = st) -> s_bind (s_force_head h) f st = Ok (y, st1) -> st1 = st).
  { intros X f h st0 y st1 G R. unfold s_bind, s_force_head in R.
    destruct (head_look st0 h) as [p|]; [|discriminate]. cbn [unwrap s_lift] in R. eauto. }
  intros N H. destruct c; cbn [k_step k_names] in *;
    try (match type of H with context [nth_error sp ?i] => destruct (nth_error sp i) as [s|] end);
    try (now injection H).
  - destruct nm; [discriminate|]. now injection H.
  - unfold s_bind at 1 in H. destruct (ss_pull s st) as [[o1 st1]| |] eqn:P; try discriminate.
    assert (st1 = st) as -> by
      (destruct s; cbn [ss_pull] in P; [eapply F in P; [exact P|intros [? ?] Q; now injection Q]|now injection P]).
    destruct o1; now injection H.
  - unfold s_bind at 1 in H. destruct (ss_peek s st) as [[o1 st1]| |] eqn:P; try discriminate.
    assert (st1 = st) as -> by
      (destruct s; cbn [ss_peek] in P; [eapply F in P; [exact P|intros [? ?] Q; now injection Q]|now injection P]).
    now injection H.
  - unfold s_bind at 1 in H. destruct (ss_take n s st) as [[o1 st1]| |] eqn:P; try discriminate.
    assert (st1 = st) as ->; [|now injection H].
    apply (take_frame st st ltac:(auto)) in P; tauto.
Qed.
Lemma k_run_unnamed cs : forall (sp sp' : list (option (shead T))) (st st' : store T A) os,
  flat_map k_names cs = [] -> k_run sp cs st = Ok ((os, sp'), st') -> st' = st.
Proof.
  induction cs as [|c cs IH]; intros sp sp' st st' os N H; cbn [k_run flat_map] in *; [now injection H|].
  apply app_eq_nil in N. destruct N as [N1 N2]. unfold s_bind at 1 in H.
  destruct (k_step sp c st) as [[[x p1] st1]| |] eqn:E1; try discriminate.
  apply k_step_unnamed in E1; [|exact N1]. subst st1. unfold s_bind at 1 in H.
  destruct (k_run p1 cs st) as [[[xs p2] st2]| |] eqn:E2; try discriminate.
  injection H as _ _ <-. eapply IH; eauto.
Qed.

(** Pushing with a name in use redirects the older handle ... *)
Lemma push_twice (st : store T A) n (a b : T) (s t : option (shead T)) :
  exists h st1 st2, ss_push s (Some n) a st = Ok (h, st1) /\ ss_push t (Some n) b st1 = Ok (h, st2) /\
    ss_peek h st1 = Ok (Some a, st1) /\ ss_peek h st2 = Ok (Some b, st2) /\
    ss_pull h st1 = Ok (Some s, st1) /\ ss_pull h st2 = Ok (Some t, st2).
Proof.
  do 3 eexists. split; [reflexivity|]. split; [reflexivity|].
  cbn [ss_peek ss_pull]. unfold s_bind, s_force_head, head_look, write, s_cell, s_lift, s_ret, unwrap.
  destruct (loc_eq_dec (path, n) (path, n)); [|congruence]. auto.
Qed.
(** ... and onto that handle itself it makes a cell that points to itself. *)
Lemma push_onto_itself (st : store T A) n (a b : T) (s : option (shead T)) :
  exists h st1 h2 st2, ss_push s (Some n) a st = Ok (h, st1) /\ ss_push h (Some n) b st1 = Ok (h2, st2) /\
    forall k, ss_take k h2 st2 = Ok (repeat b k, st2).
Proof.
  do 4 eexists. split; [reflexivity|]. split; [reflexivity|].
  induction k as [|k IH]; [reflexivity|]. cbn [ss_take ss_iter_next repeat].
  unfold s_bind at 1 2, s_force_head, head_look at 1, write at 1.
  destruct (loc_eq_dec (path, n) (path, n)); [|congruence]. cbn [unwrap s_lift s_ret].
  unfold s_bind at 1. unfold s_bind, s_cell, s_ret in IH. now rewrite IH.
Qed.
End WholeStack.
