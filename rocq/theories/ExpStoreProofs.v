(** * Proofs for ExpStoreModel: experiments over the store go as over immutable values. *)

From Verif Require Import Base BaseFacts Spec SpecRaz LevelTreeModel TreeSpec TreeCursorModel RazMetaModel RazModel RazView RazScripts
  RazReach LevelGenModel ExampleModel ExampleSpec MemoModel MemoSpec MemoHistory EvalModel EvalSpec EvalScripts EvalProofs EvalHistory
  ActionModel ActionSpec ActionProofs ActionUses MemoEval EvalCases
  StoreModel StoreSpec StoreScripts StoreProofs StoreRaz StoreHistory StoreNs IncModel IncSpec IncProofs IncCost ExpStoreModel ExpStoreSpec.

(** ** The names a harness draws *)
Definition numbered (a b : N) (n : name) : Prop :=
  exists i, (a <= i < b)%N /\ (n = NNum i \/ n = NPair (NNum i) (NStr "tree")).
Definition onames (l : list (option name)) : list name := flat_map (fun o => oroot o ++ oroot (tree_name o)) l.
Definition nums (a : N) (n : nat) : list name := map (fun i => NNum (a + N.of_nat i)) (seq 0 n).

Lemma nums_S a n : nums a (Datatypes.S n) = NNum a :: nums (a + 1) n.
Proof.
  unfold nums. cbn [seq map]. rewrite N.add_0_r. f_equal. rewrite <- seq_shift, map_map. apply map_ext. intros i. f_equal. lia.
Qed.
Lemma onames_app a b : onames (a ++ b) = onames a ++ onames b.
Proof. apply flat_map_app. Qed.
Lemma onames_none k : onames (repeat None k) = [].
Proof. induction k; auto. Qed.
Lemma numbered_weaken a b a' b' n : (a' <= a)%N -> (b <= b')%N -> numbered a b n -> numbered a' b' n.
Proof. intros A B (i & H & X). exists i. split; [lia|exact X]. Qed.
Lemma onames_numbered n : forall a, Forall (numbered a (a + N.of_nat n)) (onames (map Some (nums a n))).
Proof.
  induction n as [|n IH]; intros a; [constructor|]. rewrite nums_S. cbn [map]. change (Some (NNum a) :: ?x) with ([Some (NNum a)] ++ x).
  rewrite onames_app. apply Forall_app. split.
  - cbn. repeat constructor; exists a; (split; [lia|auto]).
  - eapply Forall_impl; [|apply IH]. intros m. apply numbered_weaken; lia.
Qed.
Lemma numbered_apart a b c l : Forall (numbered a b) l -> forall l', Forall (numbered b c) l' -> apart l l'.
Proof.
  intros F l' F' n. destruct (in_dec name_eq_dec n l) as [I|I]; [|left; now apply cnt_zero].
  destruct (in_dec name_eq_dec n l') as [I'|I']; [|right; now apply cnt_zero].
  rewrite Forall_forall in F, F'. destruct (F n I) as (i & H & [X|X]), (F' n I') as (j & H' & [X'|X']); subst; inv X'; lia.
Qed.
Lemma apart_uniq a b : uniq a -> uniq b -> apart a b -> uniq (a ++ b).
Proof. intros A B C. names. Qed.
Lemma onames_uniq n : forall a, uniq (onames (map Some (nums a n))).
Proof.
  induction n as [|n IH]; intros a; [intros m; apply Nat.le_0_l|]. rewrite nums_S. cbn [map]. change (Some (NNum a) :: ?x) with ([Some (NNum a)] ++ x).
  rewrite onames_app. apply apart_uniq; [|apply IH|].
  - apply uniq_NoDup. cbn. repeat constructor; cbn; intuition discriminate.
  - eapply (numbered_apart a (a + 1)); [|apply onames_numbered]. cbn. repeat constructor; exists a; (split; [lia|auto]).
Qed.
Lemma sub_Forall (P : name -> Prop) l l' : sub l' l -> Forall P l -> Forall P l'.
Proof.
  intros S F. rewrite Forall_forall in *. intros n I. apply F. apply cnt_In. apply cnt_In in I. specialize (S n). lia.
Qed.
Lemma sub_uniq l l' : sub l' l -> uniq l -> uniq l'.
Proof. intros S U. names. Qed.

(** ** The parts of a harness that are no tree *)
Section Harness.
Context {E M G S : Type} {RM : RazMeta E M} {CG : Coord E G} {WS : WordRng S}.
Notation eval := (eval_raz E M G).
Notation seval := (seval_raz E M G).
Notation rstore := (store (level * list E) (tree_data E M)).
Notation rm := (sm (level * list E) (tree_data E M)).

Definition alike (sv : seval) (ev : eval) : Prop :=
  sv_names sv = ev_names ev /\ sv_coord sv = ev_coord ev /\ sv_counter sv = ev_counter ev /\
  sv_datagauge sv = ev_datagauge ev /\ sv_namegauge sv = ev_namegauge ev.

Lemma draw_alike n : forall sv ev l ev', alike sv ev -> draw ev_next_name n ev = (l, ev') ->
  exists sv', draw sv_next_name n sv = (l, sv') /\ alike sv' ev' /\ sv_tree sv' = sv_tree sv.
Proof.
  induction n as [|n IH]; intros sv ev l ev' A D; cbn [draw ev_next_name sv_next_name] in *.
  - inv D. eauto.
  - destruct (draw ev_next_name n _) as [l1 ev1] eqn:Q in D. inv D.
    edestruct IH as (sv1 & Q1 & A1 & T1); [|exact Q|]; [|rewrite Q1; eexists; split; [|split; [exact A1|exact T1]]].
    + destruct A as (A1 & A2 & A3 & A4 & A5). unfold alike. cbn. rewrite A1. auto.
    + do 2 f_equal. now destruct A as (-> & _).
Qed.
Lemma init_alike n k : forall sv ev l ev', alike sv ev -> init_names n k ev = (l, ev') ->
  exists sv', s_init_names n k sv = (l, sv') /\ alike sv' ev' /\ sv_tree sv' = sv_tree sv.
Proof.
  induction n as [|n IH]; intros sv ev l ev' A D; cbn [init_names s_init_names ev_next_name sv_next_name] in *.
  - inv D. eauto.
  - destruct (init_names n k _) as [l1 ev1] eqn:Q in D. inv D.
    edestruct IH as (sv1 & Q1 & A1 & T1); [|exact Q|]; [|rewrite Q1; eexists; split; [|split; [exact A1|exact T1]]].
    + destruct A as (A1 & A2 & A3 & A4 & A5). unfold alike. cbn. rewrite A1. auto.
    + do 3 f_equal. now destruct A as (-> & _).
Qed.
Lemma init_onames n k : forall ev : eval, (ev_names ev + N.of_nat n < usize_mod)%N ->
  onames (fst (init_names n k ev)) = onames (map Some (nums (ev_names ev) n)) /\
  ev_names (snd (init_names n k ev)) = (ev_names ev + N.of_nat n)%N.
Proof.
  induction n as [|n IH]; intros ev H.
  - cbn. split; [reflexivity|lia].
  - cbn [init_names ev_next_name].
    assert (Ad : usize_add (ev_names ev) 1 = (ev_names ev + 1)%N) by (unfold usize_add; apply N.mod_small; lia).
    rewrite Ad. match goal with |- context [init_names n k ?e] => specialize (IH e); destruct (init_names n k e) as [l1 ev1] end.
    cbn [fst snd ev_names] in *. destruct (IH ltac:(lia)) as [I1 I2]. rewrite nums_S, onames_app, onames_none. cbn [app map].
    split; [|lia]. change (Some (NNum (ev_names ev)) :: ?x) with ([Some (NNum (ev_names ev))] ++ x). rewrite !onames_app, I1. reflexivity.
Qed.

Section Loops.
Context {Nsp : here}.

(** The Raz of an edit over the store and without, names still to come, and the names
    that may be written since the store [st0]. *)
Definition editing (L : list name) (st0 st : rstore) (sz : sraz_z E M) (z : raz E M) (nms : list (option name)) : Prop :=
  zrep st sz z /\ uniq (zown z ++ onames nms) /\ sub (zown z ++ onames nms) L /\ upto L st0 st.

Lemma editing_step L st0 z o x z' nms nms' : zstep z o = Ok (x, z') -> onames nms = fresh o ++ onames nms' ->
  ev (fun k => forall st sz, editing L st0 st sz z nms ->
    exists sz' st', s_zstep k sz o st = Ok ((x, sz'), st') /\ editing L st0 st' sz' z' nms').
Proof.
  intros Z Q. apply (ev_imp _ _ (zstep_sim _ _ _ _ Z)). intros k K st sz (R & U & B & W). rewrite Q in *.
  destruct (K _ _ R ltac:(names)) as (sz' & st' & X & R' & U' & B'). exists sz', st'. split; [exact X|].
  split; [exact R'|]. split; [names|]. split; [names|]. eapply upto_trans; [exact W|]. eapply upto_sub; [|exact U']. names.
Qed.
Lemma editing_push L st0 z e nms : forall st sz, editing L st0 st sz z nms ->
  editing L st0 st (snd (s_push_left sz e)) (snd (push_left z e)) nms.
Proof.
  intros st sz H. assert (Z : zstep z (OPushL e) = Ok (OutLen (fst (push_left z e)), snd (push_left z e))).
  { unfold zstep. now destruct (push_left z e). }
  destruct (editing_step L st0 _ _ _ _ nms nms Z eq_refl) as [k K]. destruct (K k (le_n k) st sz H) as (sz' & st' & X & R).
  cbn [s_zstep] in X. destruct (s_push_left sz e) as [n sz1]. inv X. exact R.
Qed.
Lemma editing_archive L st0 z lev nm nms : forall st sz, editing L st0 st sz z (nm :: nms) ->
  exists sz' st', s_archive_left sz lev nm st = Ok (sz', st') /\ editing L st0 st' sz' (archive_left z lev nm) nms.
Proof.
  intros st sz H.
  destruct (editing_step L st0 z (OArchL lev nm) OutNone (archive_left z lev nm) (nm :: nms) nms eq_refl eq_refl) as [k K].
  destruct (K k (le_n k) st sz H) as (sz' & st' & X & R). cbn [s_zstep] in X. unfold s_bind in X.
  destruct (s_archive_left sz lev nm st) as [[sz1 st1]|s|] eqn:Q; try discriminate. inv X. eauto.
Qed.
Lemma editing_archive_none L st0 z lev nms : forall st sz, editing L st0 st sz z nms ->
  exists sz' st', s_archive_left sz lev None st = Ok (sz', st') /\ editing L st0 st' sz' (archive_left z lev None) nms.
Proof.
  intros st sz H. apply editing_archive. exact H.
Qed.

(** The elements of a batch. *)
Definition batching L st0 (st : rstore) (x : sraz_z E M * N * list level * list (option name))
    (y : raz E M * N * list level * list (option name)) : Prop :=
  let '(sz, c, ls, ns) := x in let '(z, c', ls', ns') := y in
  c = c' /\ ls = ls' /\ ns = ns' /\ editing L st0 st sz z ns.
Lemma edit_step_sim L st0 us ns st x y e y' : batching L st0 st x y -> edit_step us ns y e = Ok y' ->
  exists x' st', s_edit_step us ns x e st = Ok (x', st') /\ batching L st0 st' x' y'.
Proof.
  destruct x as [[[sz c] ls] nms], y as [[[z c'] ls'] nms']. intros (-> & -> & -> & H) Z. unfold edit_step in Z. unfold s_edit_step.
  apply (editing_push L st0 z e) in H.
  apply bind_Ok in Z. destruct Z as (r & Z1 & Z). unfold s_bind, s_lift, s_ret. rewrite Z1. destruct (r =? 0)%N.
  - apply bind_Ok in Z. destruct Z as ([lev ls] & Z2 & Z). rewrite Z2. apply bind_Ok in Z. destruct Z as ([nm ns'] & Z3 & Z). rewrite Z3. inv Z.
    unfold next_or in Z3. destruct nms' as [|n r0]; inv Z3.
    destruct (editing_archive L st0 _ lev nm ns' _ _ H) as (sz' & st' & X & R). rewrite X.
    do 2 eexists. split; [reflexivity|]. repeat split; apply R.
  - apply bind_Ok in Z. destruct Z as (r2 & Z2 & Z). rewrite Z2. destruct (r2 =? 0)%N.
    + apply bind_Ok in Z. destruct Z as ([lev ls] & Z3 & Z). rewrite Z3. inv Z.
      destruct (editing_archive_none L st0 _ lev nms' _ _ H) as (sz' & st' & X & R). rewrite X.
      do 2 eexists. split; [reflexivity|]. repeat split; apply R.
    + inv Z. do 2 eexists. split; [reflexivity|]. repeat split; apply H.
Qed.
Lemma batch_sim L st0 us ns data : forall st x y y', batching L st0 st x y -> fold_res (edit_step us ns) data y = Ok y' ->
  exists x' st', s_each (s_edit_step us ns) data x st = Ok (x', st') /\ batching L st0 st' x' y'.
Proof.
  induction data as [|e data IH]; intros st x y y' H Z; cbn [fold_res s_each] in *.
  - inv Z. unfold s_ret. eauto.
  - apply bind_Ok in Z. destruct Z as (y1 & Z1 & Z). destruct (edit_step_sim L st0 us ns st x y e y1 H Z1) as (x1 & st1 & X1 & H1).
    rewrite (s_bind_Ok _ _ _ _ _ X1). eauto.
Qed.

(** The elements of a new harness. *)
Definition starting L st0 (st : rstore) (x : s_init_state (E := E) (M := M)) (y : init_state (E := E) (M := M)) : Prop :=
  let '(sz, d, ls, ns) := x in let '(z, d', ls', ns') := y in
  d = d' /\ ls = ls' /\ ns = ns' /\ editing L st0 st sz z ns.
Lemma times_sim {X Y} (Rel : rstore -> X -> Y -> Prop) (f : Y -> res Y) (g : X -> rm X) :
  (forall st x y y', Rel st x y -> f y = Ok y' -> exists x' st', g x st = Ok (x', st') /\ Rel st' x' y') ->
  forall n st x y y', Rel st x y -> times n f y = Ok y' -> exists x' st', s_times n g x st = Ok (x', st') /\ Rel st' x' y'.
Proof.
  intros F. induction n as [|n IH]; intros st x y y' H Z; cbn [times s_times] in *.
  - inv Z. unfold s_ret. eauto.
  - apply bind_Ok in Z. destruct Z as (y1 & Z1 & Z). destruct (F st x y y1 H Z1) as (x1 & st1 & X1 & H1).
    rewrite (s_bind_Ok _ _ _ _ _ X1). eauto.
Qed.
Lemma init_push_sim L st0 st x y y' : starting L st0 st x y -> init_push y = Ok y' ->
  exists x' st', s_init_push x st = Ok (x', st') /\ starting L st0 st' x' y'.
Proof.
  destruct x as [[[sz c] ls] nms], y as [[[z c'] ls'] nms']. intros (-> & -> & -> & H) Z. unfold init_push in Z. unfold s_init_push.
  apply bind_Ok in Z. destruct Z as ([e d] & Z1 & Z). inv Z. unfold s_bind, s_lift, s_ret. rewrite Z1.
  do 2 eexists. split; [reflexivity|]. repeat split; apply (editing_push L st0 z e nms' st sz H).
Qed.
Lemma init_archive_sim L st0 st x y y' : starting L st0 st x y -> init_archive y = Ok y' ->
  exists x' st', s_init_archive x st = Ok (x', st') /\ starting L st0 st' x' y'.
Proof.
  destruct x as [[[sz c] ls] nms], y as [[[z c'] ls'] nms']. intros (-> & -> & -> & H) Z. unfold init_archive in Z. unfold s_init_archive.
  apply bind_Ok in Z. destruct Z as ([lev ls] & Z1 & Z). apply bind_Ok in Z. destruct Z as ([nm ns] & Z2 & Z). inv Z.
  unfold s_bind, s_lift, s_ret. rewrite Z1, Z2. unfold next_or in Z2. destruct nms' as [|n r]; inv Z2.
  destruct (editing_archive L st0 _ lev nm ns _ _ H) as (sz' & st' & X & R). rewrite X.
  do 2 eexists. split; [reflexivity|]. repeat split; apply R.
Qed.
Lemma init_archive_none_sim L st0 st x y y' : starting L st0 st x y -> init_archive_none y = Ok y' ->
  exists x' st', s_init_archive_none x st = Ok (x', st') /\ starting L st0 st' x' y'.
Proof.
  destruct x as [[[sz c] ls] nms], y as [[[z c'] ls'] nms']. intros (-> & -> & -> & H) Z. unfold init_archive_none in Z. unfold s_init_archive_none.
  apply bind_Ok in Z. destruct Z as ([lev ls] & Z1 & Z). inv Z.
  unfold s_bind, s_lift, s_ret. rewrite Z1.
  destruct (editing_archive_none L st0 _ lev nms' _ _ H) as (sz' & st' & X & R). rewrite X.
  do 2 eexists. split; [reflexivity|]. repeat split; apply R.
Qed.

(** ** Making and editing a harness *)
Definition hrep (st : rstore) (sv : seval) (ev : eval) : Prop :=
  alike sv ev /\ exists s t, sv_tree sv = Some s /\ ev_tree ev = Some t /\ rtrep st s t /\
    uniq (rtnames t) /\ Forall (numbered 0 (ev_names ev)) (rtnames t).
(** Only cells with these numbers in the namespace in force may differ. *)
Definition writes_numbered (b : N) (st st' : rstore) : Prop :=
  forall a, fst a <> path \/ ~ numbered 0 b (snd a) -> st' a = st a.
Lemma upto_numbered L b st st' : Forall (numbered 0 b) L -> upto L st st' -> writes_numbered b st st'.
Proof.
  intros F U a [H|H]; apply U; [now left|right]. apply cnt_zero. intros I. apply H. rewrite Forall_forall in F. auto.
Qed.

Lemma edit_names (ev0 : eval) z batch (rng : S) ev1 rng1 :
  ev_edit ev0 z batch rng = Ok (ev1, rng1) ->
  (ev_names ev0 + batch / usize_mul (ev_namegauge ev0) (ev_datagauge ev0) + 1 < usize_mod)%N ->
  ev_names ev1 = (ev_names ev0 + batch / usize_mul (ev_namegauge ev0) (ev_datagauge ev0) + 1)%N.
Proof.
  intros Z Hn. unfold ev_edit in Z. apply bind_Ok in Z. destruct Z as (nl & Z1 & Z). destruct (draw gen_level _ _) as [levs rng'].
  apply bind_Ok in Z. destruct Z as (nn & Z2 & Z).
  assert (Nn : nn = (batch / usize_mul (ev_namegauge ev0) (ev_datagauge ev0))%N).
  { unfold usize_div in Z2. destruct (_ =? 0)%N; [discriminate|]. now inv Z2. }
  rewrite <- Nn in Hn |- *. assert (Un : usize_add nn 1 = (nn + 1)%N) by (unfold usize_add; apply N.mod_small; lia).
  rewrite Un in Z. rewrite draw_names in Z by (rewrite N2Nat.id; lia). destruct (draw gen_elt _ _) as [data coord].
  apply bind_Ok in Z. destruct Z as ([[[z1 c1] l1] n1] & Z3 & Z). apply bind_Ok in Z. destruct Z as (t & Z4 & Z). injection Z as <- <-.
  cbn [ev_names]. lia.
Qed.
Lemma edit_sim (ev0 : eval) z batch (rng : S) ev1 rng1 :
  ev_edit ev0 z batch rng = Ok (ev1, rng1) ->
  (ev_names ev0 + batch / usize_mul (ev_namegauge ev0) (ev_datagauge ev0) + 1 < usize_mod)%N ->
  ev (fun k => forall st sv sz, alike sv ev0 -> zrep st sz z -> uniq (zown z) -> Forall (numbered 0 (ev_names ev0)) (zown z) ->
    exists sv' st', sv_edit k sv sz batch rng st = Ok ((sv', rng1), st') /\ hrep st' sv' ev1 /\
      writes_numbered (ev_names ev1) st st' /\
      ev_names ev1 = (ev_names ev0 + batch / usize_mul (ev_namegauge ev0) (ev_datagauge ev0) + 1)%N).
Proof.
  intros Z Hn. unfold ev_edit in Z. apply bind_Ok in Z. destruct Z as (nl & Z1 & Z).
  destruct (draw gen_level (N.to_nat (usize_add nl 1)) rng) as [levs rng'] eqn:Dl.
  apply bind_Ok in Z. destruct Z as (nn & Z2 & Z).
  assert (Nn : nn = (batch / usize_mul (ev_namegauge ev0) (ev_datagauge ev0))%N).
  { unfold usize_div in Z2. destruct (_ =? 0)%N; [discriminate|]. now inv Z2. }
  rewrite <- Nn in Hn |- *. assert (Un : usize_add nn 1 = (nn + 1)%N) by (unfold usize_add; apply N.mod_small; lia).
  rewrite Un in Z. rewrite draw_names in Z by (rewrite N2Nat.id; lia).
  set (ev2 := EvalRaz _ _ _ _ _ _) in Z.
  fold (nums (ev_names ev0) (N.to_nat (nn + 1))) in Z.
  destruct (draw gen_elt (N.to_nat batch) (ev_coord ev2)) as [data coord] eqn:Dd.
  apply bind_Ok in Z. destruct Z as ([[[z1 c1] l1] n1] & Z3 & Z). apply bind_Ok in Z. destruct Z as (t & Z4 & Z). inv Z.
  apply (ev_imp _ _ (unfocus_sim _ _ Z4)). intros k K st sv sz A R U F.
  assert (Dn : draw ev_next_name (N.to_nat (batch / usize_mul (ev_namegauge ev0) (ev_datagauge ev0) + 1)) ev0 = (nums (ev_names ev0) (N.to_nat (batch / usize_mul (ev_namegauge ev0) (ev_datagauge ev0) + 1)), ev2)).
  { apply draw_names. rewrite N2Nat.id. lia. }
  destruct (draw_alike _ _ _ _ _ A Dn) as (sv2 & D2 & A2 & T2). 
  pose proof A as (A_n & A_g & A_c & A_d & A_ng). pose proof A2 as (B_n & B_g & B_c & B_d & B_ng).
  unfold sv_edit. rewrite A_d, A_ng. unfold s_bind at 1, s_lift at 1. rewrite Z1, Dl.
  unfold s_bind at 1, s_lift at 1. rewrite Z2, Un, D2, B_g, Dd.
  set (nl' := nums _ _) in *.
  set (L := zown z ++ onames (map Some nl')).
  assert (FL : Forall (numbered 0 (ev_names ev2)) L).
  { apply Forall_app. split.
    - eapply Forall_impl; [|exact F]. intros n. apply numbered_weaken; [lia|]. cbn. lia.
    - eapply Forall_impl; [|apply onames_numbered]. intros n. apply numbered_weaken; [lia|]. cbn. lia. }
  assert (UL : uniq L).
  { apply apart_uniq; [exact U|apply onames_uniq|]. eapply numbered_apart; [exact F|apply onames_numbered]. }
  assert (B0 : batching L st st (sz, sv_counter sv2, levs, map Some nl') (z, ev_counter ev2, levs, map Some nl')).
  { split; [exact B_c|]. split; [reflexivity|]. split; [reflexivity|]. split; [exact R|]. split; [exact UL|].
    split; [apply sub_refl|apply upto_refl]. }
  destruct (batch_sim L st _ _ _ _ _ _ _ B0 Z3)
    as ([[[sz1 c1'] l1'] n1'] & st1 & X1 & (-> & -> & -> & R1 & U1 & S1 & W1)).
  rewrite B_d, B_ng. unfold s_bind at 1. rewrite X1.
  destruct (K st1 sz1 R1 ltac:(names)) as (s & st2 & X2 & R2 & W2 & S2).
  unfold s_bind at 1. rewrite X2. do 2 eexists. split; [reflexivity|]. cbn [ev_names].
  assert (SL : sub (rtnames t) L) by names.
  split; [|split].
  - split; [repeat split; exact B_n|].
    exists s, t. split; [reflexivity|]. split; [reflexivity|]. split; [exact R2|]. split; [exact (sub_uniq _ _ SL UL)|].
    exact (sub_Forall _ _ _ SL FL).
  - eapply upto_numbered; [exact FL|]. eapply upto_trans; [exact W1|]. eapply upto_sub; [|exact W2]. names.
  - cbn. lia.
Qed.

Lemma init_sim size us ns coord (rng : S) ev1 rng1 :
  ev_inc_init (E := E) (M := M) (G := G) size us ns coord rng = Ok (ev1, rng1) ->
  (size / usize_mul ns us < usize_mod)%N ->
  ev (fun k => forall st, exists sv' st', sv_inc_init k size us ns coord rng st = Ok ((sv', rng1), st') /\ hrep st' sv' ev1 /\
      writes_numbered (ev_names ev1) st st' /\ ev_names ev1 = (size / usize_mul ns us)%N).
Proof.
  intros Z Hn. unfold ev_inc_init in Z. apply bind_Ok in Z. destruct Z as (nn & Z1 & Z).
  assert (Nn : nn = (size / usize_mul ns us)%N).
  { unfold usize_div in Z1. destruct (_ =? 0)%N; [discriminate|]. now inv Z1. }
  rewrite <- Nn in Hn |- *. clear Nn.
  apply bind_Ok in Z. destruct Z as (nl & Z2 & Z). apply bind_Ok in Z. destruct Z as (un & Z3 & Z).
  destruct (draw gen_level (N.to_nat nl) rng) as [levs rng'] eqn:Dl.
  pose proof (init_onames (N.to_nat nn) (N.to_nat (usize_sub ns 1)) (ev_new us ns coord) ltac:(cbn [ev_new ev_names]; rewrite N2Nat.id; lia)) as [On1 On2].
  destruct (init_names (N.to_nat nn) (N.to_nat (usize_sub ns 1)) (ev_new us ns coord)) as [nms ev2] eqn:Dn.
  cbn [fst snd ev_new ev_names] in On1, On2. rewrite N2Nat.id in On2. cbn [N.add] in On2.
  destruct (draw gen_elt (N.to_nat size) (ev_coord ev2)) as [data coord'] eqn:Dd.
  apply bind_Ok in Z. destruct Z as (y1 & Z4 & Z). apply bind_Ok in Z. destruct Z as (y2 & Z5 & Z).
  apply bind_Ok in Z. destruct Z as ([[[z3 d3] l3] n3] & Z6 & Z). apply bind_Ok in Z. destruct Z as (t & Z7 & Z). injection Z as <- <-.
  apply (ev_imp _ _ (unfocus_sim _ _ Z7)). intros k K st.
  assert (A : alike (sv_new us ns coord) (ev_new us ns coord)) by (repeat split).
  destruct (init_alike _ _ _ _ _ _ A Dn) as (sv2 & D2 & A2 & T2). pose proof A2 as (B_n & B_g & B_c & B_d & B_ng).
  unfold sv_inc_init. unfold s_bind at 1, s_lift at 1. rewrite Z1. unfold s_bind at 1, s_lift at 1. rewrite Z2.
  unfold s_bind at 1, s_lift at 1. rewrite Z3, Dl, D2, B_g, Dd.
  set (L := onames nms).
  assert (FL : Forall (numbered 0 (ev_names ev2)) L).
  { unfold L. rewrite On1. eapply Forall_impl; [|apply onames_numbered]. intros n. apply numbered_weaken; lia. }
  assert (UL : uniq L) by (unfold L; rewrite On1; apply onames_uniq).
  assert (B0 : starting L st st (s_raz_new, data, levs, nms) (raz_new, data, levs, nms)).
  { split; [reflexivity|]. split; [reflexivity|]. split; [reflexivity|]. split; [apply raz_new_rep|]. split; [exact UL|].
    split; [apply sub_refl|apply upto_refl]. }
  assert (Pu : forall n st1 x y y', starting L st st1 x y -> times n init_push y = Ok y' ->
    exists x' st2, s_times n s_init_push x st1 = Ok (x', st2) /\ starting L st st2 x' y').
  { apply times_sim. intros. now apply (init_push_sim L st st0 x y). }
  assert (X1 : exists x1 st1, s_times (N.to_nat nn)
             (s_times (N.to_nat ns) (fun x => act x <- s_times (N.to_nat us) s_init_push x; s_init_archive x))
             (s_raz_new, data, levs, nms) st = Ok (x1, st1) /\ starting L st st1 x1 y1).
  { revert B0 Z4. apply (times_sim (starting L st)). apply (times_sim (starting L st)). intros st1 x y y' H Q.
    apply bind_Ok in Q. destruct Q as (y2' & Q1 & Q). destruct (Pu _ _ _ _ _ H Q1) as (x' & st2 & X & H2).
    rewrite (s_bind_Ok _ _ _ _ _ X). now apply (init_archive_sim L st st2 x' y2'). }
  destruct X1 as (x1 & st1 & X1 & H1). unfold s_bind at 1. rewrite X1.
  assert (X2 : exists x2 st2, s_times (N.to_nat un)
             (fun x => act x <- s_times (N.to_nat us) s_init_push x; s_init_archive_none x) x1 st1 = Ok (x2, st2) /\ starting L st st2 x2 y2).
  { revert H1 Z5. apply (times_sim (starting L st)). intros st2 x y y' H Q.
    apply bind_Ok in Q. destruct Q as (y2' & Q1 & Q). destruct (Pu _ _ _ _ _ H Q1) as (x' & st3 & X & H2).
    rewrite (s_bind_Ok _ _ _ _ _ X). now apply (init_archive_none_sim L st st3 x' y2'). }
  destruct X2 as (x2 & st2 & X2 & H2). unfold s_bind at 1. rewrite X2.
  destruct (Pu _ _ _ _ _ H2 Z6) as ([[[sz3 d3'] l3'] n3'] & st3 & X3 & (-> & -> & -> & R3 & U3 & S3 & W3)).
  unfold s_bind at 1. rewrite X3.
  destruct (K st3 sz3 R3 ltac:(names)) as (s & st4 & X4 & R4 & W4 & S4).
  unfold s_bind at 1. rewrite X4. do 2 eexists. split; [reflexivity|].
  cbn [ev_names ev_set_tree ev_set_coord sv_set_tree sv_set_coord].
  assert (SL : sub (rtnames t) L) by names.
  split; [|split].
  - split; [repeat split; cbn; assumption|].
    exists s, t. split; [reflexivity|]. split; [reflexivity|]. split; [exact R4|]. split; [exact (sub_uniq _ _ SL UL)|].
    exact (sub_Forall _ _ _ SL FL).
  - eapply upto_numbered; [exact FL|]. eapply upto_trans; [exact W3|]. eapply upto_sub; [|exact W4]. names.
  - exact On2.
Qed.
End Loops.
End Harness.

(** ** Computations that stay in their namespace *)
Section Home.
Context {E M G S : Type} {RM : RazMeta E M} {CG : Coord E G} {WS : WordRng S} {Nsp : here}.
Notation rstore := (store (level * list E) (tree_data E M)).

Lemma tame_times {T A X} n (g : X -> sm T A X) : (forall x, tame (g x)) -> forall x, tame (s_times n g x).
Proof. intros H. induction n as [|n IH]; intros x; cbn [s_times]; [apply tame_ret|]. now apply tame_bind. Qed.
Lemma tame_each {T A X Y} (g : X -> Y -> sm T A X) l : (forall x y, tame (g x y)) -> forall x, tame (s_each g l x).
Proof. intros H. induction l as [|y l IH]; intros x; cbn [s_each]; [apply tame_ret|]. now apply tame_bind. Qed.

#[local] Hint Resolve tame_ret tame_lift tame_archive_left tame_unfocus tame_focus : tame.
Lemma tame_init_push x : tame (s_init_push (E := E) (M := M) x).
Proof. tms @s_init_push. Qed.
Lemma tame_init_archive x : tame (s_init_archive (E := E) (M := M) x).
Proof. tms @s_init_archive. Qed.
Lemma tame_init_archive_none x : tame (s_init_archive_none (E := E) (M := M) x).
Proof. tms @s_init_archive_none. Qed.
#[local] Hint Resolve tame_init_push tame_init_archive tame_init_archive_none tame_times tame_each : tame.
Lemma tame_inc_init k size us ns (coord : G) (rng : S) : tame (sv_inc_init (E := E) (M := M) k size us ns coord rng).
Proof.
  unfold sv_inc_init. apply tame_bind; [tm|]. intros nn. apply tame_bind; [tm|]. intros nl. apply tame_bind; [tm|]. intros un.
  destruct (draw gen_level _ _) as [levs rng']. destruct (s_init_names _ _ _) as [nms sv]. destruct (draw gen_elt _ _) as [data coord'].
  cbv zeta. apply tame_bind; [apply tame_times; intros; apply tame_times; tm|]. intros x.
  apply tame_bind; [apply tame_times; tm|]. intros y. apply tame_bind; [apply tame_times; tm|]. tm.
Qed.
Lemma tame_edit_step us ns x e : tame (s_edit_step (E := E) (M := M) us ns x e).
Proof. tms @s_edit_step. Qed.
Lemma tame_edit k sv z b (rng : S) : tame (sv_edit (E := E) (M := M) (G := G) k sv z b rng).
Proof.
  unfold sv_edit. apply tame_bind; [tm|]. intros nl. destruct (draw gen_level _ _) as [levs rng'].
  apply tame_bind; [tm|]. intros nn. destruct (draw sv_next_name _ _) as [nms sv']. destruct (draw gen_elt _ _) as [data coord'].
  apply tame_bind; [apply tame_each, tame_edit_step|]. tm.
Qed.

Lemma tame_home {X} (m : sm (level * list E) (tree_data E M) X) st x st1 : tame m -> m (within path st) = Ok (x, st1) ->
  exists st2, m st = Ok (x, st2) /\ below st1 (within path st2).
Proof.
  intros Ta H. destruct (tame_mono _ Ta _ _ _ _ (within_below path st) H) as (st2 & Q2 & B). exists st2. split; [exact Q2|].
  intros a c Ha. unfold within. destruct (list_eq_dec name_eq_dec (fst a) path) as [_|Nq]; [now apply B|].
  rewrite (tame_stays _ Ta _ _ _ H a Nq) in Ha. unfold within in Ha. now destruct (list_eq_dec name_eq_dec (fst a) path).
Qed.
Lemma rtrep_reads (st : rstore) h (t : raz_tree E M) : rtrep st h t -> tree_reads st h t.
Proof.
  intros [Hm H]. split; [exact Hm|]. destruct (srt_tree h), (rt_tree t); simpl in *; auto.
  exists (t_size t0). apply rep_read; [exact H|lia].
Qed.
Lemma hrep_below (st st' : rstore) (sv : seval_raz E M G) ev : below st st' -> hrep st sv ev -> hrep st' sv ev.
Proof.
  intros B (A & s & t & Ts & Tt & R & U & F). split; [exact A|]. exists s, t. split; [exact Ts|]. split; [exact Tt|]. split; [|auto].
  apply (tree_reads_rtrep Nsp), (tree_reads_below st); [exact B|]. now apply rtrep_reads.
Qed.
End Home.

(** ** [EvalIRaz] *)
Section IRaz.
Context {E G S : Type} {CG : Coord E G} {WS : WordRng S} {Nsp : here}.
Notation eval := (eval_raz E count G).
Notation seval := (seval_raz E count G).
Notation rstore := (store (level * list E) (tree_data E count)).

Lemma hop_sim o (ev0 : eval) (rng : S) ev1 rng1 : iraz_editor o ev0 rng = Ok (ev1, rng1) ->
  (ev_names ev0 + hop_batch o / usize_mul (ev_namegauge ev0) (ev_datagauge ev0) + 1 < usize_mod)%N ->
  ev (fun k => forall (st : rstore) sv, hrep st sv ev0 ->
    exists sv' st', siraz_editor k o sv rng st = Ok ((sv', rng1), st') /\ hrep st' sv' ev1 /\
      writes_numbered (ev_names ev1) st st' /\
      ev_names ev1 = (ev_names ev0 + hop_batch o / usize_mul (ev_namegauge ev0) (ev_datagauge ev0) + 1)%N).
Proof.
  intros Z Hn. destruct o as [b|b]; cbn [iraz_editor siraz_editor hop_batch] in *; unfold batch_append, batch_insert in Z.
  - unfold ev_append in Z. apply bind_Ok in Z. destruct Z as (t & Z1 & Z). apply bind_Ok in Z. destruct Z as (oz & Z2 & Z).
    apply bind_Ok in Z. destruct Z as (z & Z3 & Z).
    apply (ev_imp _ _ (ev_and _ _ (focus_sim _ _ _ Z2) (edit_sim _ _ _ _ _ _ Z Hn))).
    intros k [K1 K2] st sv (A & s & t' & Ts & Tt & R & U & F). rewrite Tt in Z1. inv Z1.
    destruct (K1 st s R) as (osz & X1 & Q). destruct oz as [z'|]; inv Z3. destruct osz as [sz|]; [|contradiction].
    destruct Q as [Rz Sz]. unfold sv_append. rewrite Ts. cbn [unwrap]. rewrite (s_bind_Ok _ _ st _ st eq_refl).
    pose proof R as [Rm _]. rewrite Rm, (s_bind_Ok _ _ _ _ _ X1), (s_bind_Ok _ _ st sz st eq_refl).
    apply K2; auto; [exact (sub_uniq _ _ Sz U)|exact (sub_Forall _ _ _ Sz F)].
  - unfold ev_insert in Z. apply bind_Ok in Z. destruct Z as (t & Z1 & Z). destruct (gen_usize (ev_coord ev0)) as [r coord] eqn:Gu.
    apply bind_Ok in Z. destruct Z as (lc & Zl & Z). apply bind_Ok in Z. destruct Z as (oz & Z2 & Z).
    apply bind_Ok in Z. destruct Z as (z & Z3 & Z).
    apply (ev_imp _ _ (ev_and _ _ (focus_sim _ _ _ Z2) (edit_sim (ev_set_coord ev0 coord) _ _ _ _ _ Z Hn))).
    intros k [K1 K2] st sv (A & s & t' & Ts & Tt & R & U & F). rewrite Tt in Z1. inv Z1.
    destruct (K1 st s R) as (osz & X1 & Q). destruct oz as [z'|]; inv Z3. destruct osz as [sz|]; [|contradiction].
    destruct Q as [Rz Sz]. unfold sv_insert. rewrite Ts. cbn [unwrap]. rewrite (s_bind_Ok _ _ st _ st eq_refl).
    pose proof A as (A1 & A2 & A3 & A4 & A5).
    pose proof R as [Rm _]. rewrite Rm, A2, Gu. unfold s_bind at 1, s_lift at 1. rewrite Zl, (s_bind_Ok _ _ _ _ _ X1), (s_bind_Ok _ _ st sz st eq_refl).
    apply K2; auto; [repeat split; cbn; assumption|exact (sub_uniq _ _ Sz U)|exact (sub_Forall _ _ _ Sz F)].
Qed.

Lemma tame_hop k o sv (rng : S) : tame (siraz_editor (E := E) (G := G) k o sv rng).
Proof.
  destruct o; cbn [siraz_editor]; [unfold sv_append|unfold sv_insert].
  - apply tame_bind; [apply tame_lift|]. intros t. apply tame_bind; [apply tame_focus|]. intros f. apply tame_bind; [apply tame_lift|].
    intros z. apply tame_edit.
  - apply tame_bind; [apply tame_lift|]. intros t. cbv zeta. destruct (gen_usize _) as [r c]. apply tame_bind; [apply tame_lift|]. intros l.
    apply tame_bind; [apply tame_focus|]. intros f. apply tame_bind; [apply tame_lift|]. intros z. apply tame_edit.
Qed.

(** Gauges stay. *)
Lemma draw_gauges {M} n : forall (ev : eval_raz E M G) l ev', draw ev_next_name n ev = (l, ev') ->
  ev_datagauge ev' = ev_datagauge ev /\ ev_namegauge ev' = ev_namegauge ev.
Proof.
  induction n as [|n IH]; intros ev0 l ev' H; cbn [draw ev_next_name] in H; [inv H; auto|].
  destruct (draw ev_next_name n _) as [l1 ev1] eqn:Q in H. inv H. apply IH in Q. exact Q.
Qed.
Lemma init_gauges {M} n k : forall (ev : eval_raz E M G) l ev', init_names n k ev = (l, ev') ->
  ev_datagauge ev' = ev_datagauge ev /\ ev_namegauge ev' = ev_namegauge ev.
Proof.
  induction n as [|n IH]; intros ev0 l ev' H; cbn [init_names ev_next_name] in H; [inv H; auto|].
  destruct (init_names n k _) as [l1 ev1] eqn:Q in H. inv H. apply IH in Q. exact Q.
Qed.
Lemma edit_gauges (ev0 : eval) z b (rng : S) ev1 rng1 : ev_edit ev0 z b rng = Ok (ev1, rng1) ->
  ev_datagauge ev1 = ev_datagauge ev0 /\ ev_namegauge ev1 = ev_namegauge ev0.
Proof.
  unfold ev_edit. intros Z. apply bind_Ok in Z. destruct Z as (nl & Z1 & Z). destruct (draw gen_level _ _).
  apply bind_Ok in Z. destruct Z as (nn & Z2 & Z). destruct (draw ev_next_name _ _) as [l2 ev2] eqn:D. destruct (draw gen_elt _ _).
  apply bind_Ok in Z. destruct Z as ([[[z1 c1] l1] n1] & Z3 & Z). apply bind_Ok in Z. destruct Z as (t & Z4 & Z). inv Z.
  exact (draw_gauges _ _ _ _ D).
Qed.
Lemma hop_gauges o (ev0 : eval) (rng : S) ev1 rng1 : iraz_editor o ev0 rng = Ok (ev1, rng1) ->
  ev_datagauge ev1 = ev_datagauge ev0 /\ ev_namegauge ev1 = ev_namegauge ev0.
Proof.
  destruct o; cbn [iraz_editor]; unfold batch_append, batch_insert, ev_append, ev_insert; intros Z.
  - apply bind_Ok in Z. destruct Z as (t & _ & Z). apply bind_Ok in Z. destruct Z as (f & _ & Z). apply bind_Ok in Z. destruct Z as (z & _ & Z).
    exact (edit_gauges _ _ _ _ _ _ Z).
  - apply bind_Ok in Z. destruct Z as (t & _ & Z). destruct (gen_usize _). apply bind_Ok in Z. destruct Z as (l & _ & Z).
    apply bind_Ok in Z. destruct Z as (f & _ & Z). apply bind_Ok in Z. destruct Z as (z & _ & Z).
    exact (edit_gauges (ev_set_coord ev0 _) _ _ _ _ _ Z).
Qed.
Lemma init_gauged size us ns coord (rng : S) (ev1 : eval) rng1 : ev_inc_init size us ns coord rng = Ok (ev1, rng1) ->
  ev_datagauge ev1 = us /\ ev_namegauge ev1 = ns.
Proof.
  unfold ev_inc_init. intros Z. apply bind_Ok in Z. destruct Z as (nn & Z1 & Z). apply bind_Ok in Z. destruct Z as (nl & Z2 & Z).
  apply bind_Ok in Z. destruct Z as (un & Z3 & Z). destruct (draw gen_level _ _) as [? ?]. destruct (init_names _ _ _) as [nms ev2] eqn:D.
  destruct (draw gen_elt _ _). apply bind_Ok in Z. destruct Z as (y1 & _ & Z). apply bind_Ok in Z. destruct Z as (y2 & _ & Z).
  apply bind_Ok in Z. destruct Z as ([[[z3 d3] l3] n3] & _ & Z). apply bind_Ok in Z. destruct Z as (t & _ & Z). inv Z.
  cbn. exact (init_gauges _ _ _ _ _ D).
Qed.

Lemma hrep_within (st : rstore) sv (ev0 : eval) : hrep (within path st) sv ev0 -> hrep st sv ev0.
Proof. apply hrep_below, within_below. Qed.

(** Making and editing leave the tree in the namespace. *)
Lemma hop_home o (ev0 : eval) (rng : S) ev1 rng1 : iraz_editor o ev0 rng = Ok (ev1, rng1) ->
  (ev_names ev0 + hop_batch o / usize_mul (ev_namegauge ev0) (ev_datagauge ev0) + 1 < usize_mod)%N ->
  ev (fun k => forall (st : rstore) sv, hrep (within path st) sv ev0 ->
    exists sv' st', siraz_editor k o sv rng st = Ok ((sv', rng1), st') /\ hrep (within path st') sv' ev1 /\
      writes_numbered (ev_names ev1) st st' /\
      ev_names ev1 = (ev_names ev0 + hop_batch o / usize_mul (ev_namegauge ev0) (ev_datagauge ev0) + 1)%N).
Proof.
  intros Z Hn. apply (ev_imp _ _ (hop_sim o ev0 rng ev1 rng1 Z Hn)). intros k K st sv H.
  destruct (K _ _ H) as (sv1 & st1 & X1 & R1 & _ & Q). destruct (K _ _ (hrep_within _ _ _ H)) as (sv2 & st2 & X2 & _ & W & _).
  destruct (tame_home _ _ _ _ (tame_hop k o sv rng) X1) as (st3 & X3 & B). rewrite X2 in X3. inv X3.
  exists sv1, st3. split; [exact X2|]. split; [exact (hrep_below _ _ _ _ B R1)|]. auto.
Qed.
Lemma init_home size us ns coord (rng : S) (ev1 : eval) rng1 :
  ev_inc_init size us ns coord rng = Ok (ev1, rng1) -> (size / usize_mul ns us < usize_mod)%N ->
  ev (fun k => forall (st : rstore), exists sv' st', sv_inc_init k size us ns coord rng st = Ok ((sv', rng1), st') /\
      hrep (within path st') sv' ev1 /\ writes_numbered (ev_names ev1) st st' /\ ev_names ev1 = (size / usize_mul ns us)%N).
Proof.
  intros Z Hn. apply (ev_imp _ _ (init_sim size us ns coord rng ev1 rng1 Z Hn)). intros k K st.
  destruct (K (within path st)) as (sv1 & st1 & X1 & R1 & _ & Q). destruct (K st) as (sv2 & st2 & X2 & _ & W & _).
  destruct (tame_home _ _ _ _ (tame_inc_init k size us ns coord rng) X1) as (st3 & X3 & B). rewrite X2 in X3. inv X3.
  exists sv1, st3. split; [exact X2|]. split; [exact (hrep_below _ _ _ _ B R1)|]. auto.
Qed.
End IRaz.

(** ** Experiments *)
Lemma inc_runs_snoc {T A K R X Y} (run : X -> im T A K R Y) xs : forall tab ys tab1 lgs st x y tr tab2 lg,
  inc_runs run xs tab = Ok (ys, tab1, lgs) -> run x st tab1 = Ok (y, tr, tab2, lg) ->
  inc_runs run (xs ++ [(st, x)]) tab = Ok (ys ++ [y], tab2, lgs ++ [lg]).
Proof.
  induction xs as [|[st0 x0] xs IH]; intros tab ys tab1 lgs st x y tr tab2 lg H Q; cbn [inc_runs app] in *.
  - inv H. rewrite Q. reflexivity.
  - destruct (run x0 st0 tab) as [[[[y0 tr0] tab0] lg0]|s|]; cbn [bind] in *; try discriminate.
    destruct (inc_runs run xs tab0) as [[[ys0 tab3] lgs0]|s|] eqn:Q0; cbn [bind] in *; try discriminate. inv H.
    rewrite (IH _ _ _ _ _ _ _ _ _ _ Q0 Q). reflexivity.
Qed.
Lemma Forall2_snoc {X Y} (P : X -> Y -> Prop) xs ys x y : Forall2 P xs ys -> P x y -> Forall2 P (xs ++ [x]) (ys ++ [y]).
Proof. intros F H. apply Forall2_app; [exact F|]. repeat constructor. exact H. Qed.

Section Sessions.
Context {E G S : Type} {CG : Coord E G} {WS : WordRng S} (eqD : forall x y : tree_data E count, {x = y} + {x <> y}).
Notation eval := (eval_raz E count G).
Notation seval := (seval_raz E count G).
Notation rstore := (store (level * list E) (tree_data E count)).
Context {K R Y : Type} (good : K -> rstore -> R -> Prop)
  (run : nat -> sraz_tree E count -> im (level * list E) (tree_data E count) K R Y) (pure : raz_tree E count -> res Y).
Hypothesis run_tracks : forall (Nsp : here) t, ev (fun k => forall st h, rtrep st h t ->
  tracks eqD good st (run k h) (pure t) (fun _ _ => True)).
Context (comp : computor Y eval S).
Hypothesis comp_pure : forall d t r, ev_tree d = Some t -> comp d r = (do y <- pure t; Ok (y, r)).
Context {Nsp : here}.

Definition goes_with (k : nat) (st0 : rstore) (x : session E count G S K R Y) (d : eval) (ds : list eval) (os : list Y) (r : S) : Prop :=
  hrep (within path (se_store x)) (se_now x) d /\ isound eqD good (se_tab x) /\ se_answers x = os /\ se_rng x = r /\
  Forall2 (fun c d => exists t, ev_tree d = Some t /\ tree_reads (within path (fst c)) (snd c) t) (handles (se_data x)) ds /\
  inc_runs (run k) (handles (se_data x)) no_entries = Ok (se_answers x, se_tab x, se_work x) /\
  writes_numbered (ev_names d) st0 (se_store x).

Lemma writes_trans a b (st st1 st2 : rstore) : (a <= b)%N -> writes_numbered a st st1 -> writes_numbered b st1 st2 -> writes_numbered b st st2.
Proof.
  intros L W1 W2 c [H|H]; (rewrite W2; [apply W1|]); auto. right. intros Q. apply H. revert Q. apply numbered_weaken; lia.
Qed.

(** A computation after an edit (or at the start). *)
Lemma comp_step d1 (s1 : S) o s2 : comp d1 s1 = Ok (o, s2) ->
  ev (fun k => forall st0 (st st1 : rstore) make sv data ans wk tab ds,
    make st = Ok ((sv, s1), st1) -> hrep (within path st1) sv d1 -> isound eqD good tab ->
    Forall2 (fun c d => exists t, ev_tree d = Some t /\ tree_reads (within path (fst c)) (snd c) t) (handles data) ds ->
    inc_runs (run k) (handles data) no_entries = Ok (ans, tab, wk) -> writes_numbered (ev_names d1) st0 st1 ->
    exists x, s_test_step (run k) make data ans wk st tab = Ok x /\ goes_with k st0 x d1 (ds ++ [d1]) (ans ++ [o]) s2).
Proof.
  intros C. destruct (ev_tree d1) as [t|] eqn:Td.
  2:{ exists 0. intros k _ st0 st st1 make sv data ans wk tab ds Mk (_ & s & t & _ & Tt & _). congruence. }
  rewrite (comp_pure _ _ _ Td) in C. destruct (pure t) as [y|msg|] eqn:Py; cbn [bind] in C; inv C.
  apply (ev_imp _ _ (run_tracks Nsp t)). intros k K1 st0 st st1 make sv data ans wk tab ds Mk H Sd F I W.
  pose proof (hrep_within _ _ _ H) as (_ & s & t' & Ts & Tt & Rt & _). rewrite Td in Tt. injection Tt as <-.
  pose proof (K1 _ _ Rt tab Sd) as Q. unfold s_test_step. rewrite Mk. cbn [bind]. unfold sv_compute, i_bind, i_lift. rewrite Ts. cbn [unwrap bind].
  destruct (run k s st1 tab) as [[[[y' tr] tab1] lg]|msg|] eqn:Qr; [|congruence|congruence].
  destruct Q as (Q1 & Sd' & _). rewrite Py in Q1. injection Q1 as <-. cbn [bind app].
  eexists. split; [reflexivity|]. unfold goes_with. cbn [se_store se_now se_tab se_answers se_rng se_data se_work].
  assert (Hd : handles (data ++ [(st1, sv)]) = handles data ++ [(st1, s)]).
  { unfold handles. rewrite flat_map_app. cbn [flat_map fst snd]. rewrite Ts. reflexivity. }
  rewrite Hd. split; [exact H|]. split; [exact Sd'|]. split; [reflexivity|]. split; [reflexivity|].
  split; [|split; [exact (inc_runs_snoc _ _ _ _ _ _ _ _ _ _ _ _ I Qr)|exact W]].
  apply Forall2_snoc; [exact F|]. exists t. split; [exact Td|]. cbn [fst snd].
  destruct H as (_ & s' & t' & Ts' & Tt' & Rt' & _). rewrite Ts in Ts'. rewrite Td in Tt'. injection Ts' as <-. injection Tt' as <-.
  now apply rtrep_reads.
Qed.

Lemma goes_step o d (s : S) d1 s1 y s2 : iraz_editor o d s = Ok (d1, s1) -> comp d1 s1 = Ok (y, s2) ->
  (ev_names d + hop_batch o / usize_mul (ev_namegauge d) (ev_datagauge d) + 1 < usize_mod)%N ->
  ev_names d1 = (ev_names d + hop_batch o / usize_mul (ev_namegauge d) (ev_datagauge d) + 1)%N /\
  ev (fun k => forall st0 x ds os, goes_with k st0 x d ds os s ->
    exists x', s_test_step (run k) (siraz_editor k o (se_now x) (se_rng x)) (se_data x) (se_answers x) (se_work x) (se_store x) (se_tab x) = Ok x' /\
      goes_with k st0 x' d1 (ds ++ [d1]) (os ++ [y]) s2).
Proof.
  intros Ed Co Hn. split.
  - destruct o as [b|b]; cbn [iraz_editor hop_batch] in *; unfold batch_append, batch_insert, ev_append, ev_insert in Ed.
    + apply bind_Ok in Ed. destruct Ed as (t & _ & Z). apply bind_Ok in Z. destruct Z as (f & _ & Z). apply bind_Ok in Z. destruct Z as (z & _ & Z).
      exact (edit_names _ _ _ _ _ _ Z Hn).
    + apply bind_Ok in Ed. destruct Ed as (t & _ & Z). destruct (gen_usize _) as [r c]. apply bind_Ok in Z. destruct Z as (l & _ & Z).
      apply bind_Ok in Z. destruct Z as (f & _ & Z). apply bind_Ok in Z. destruct Z as (z & _ & Z).
      exact (edit_names (ev_set_coord d c) _ _ _ _ _ Z Hn).
  - apply (ev_imp _ _ (ev_and _ _ (hop_home o d s d1 s1 Ed Hn) (comp_step d1 s1 y s2 Co))).
    intros k [K1 K2] st0 x ds os (H & Sd & <- & <- & F & I & W).
    destruct (K1 _ _ H) as (sv' & st' & X & H' & W' & Q).
    refine (K2 st0 _ st' _ sv' _ _ _ _ ds X H' Sd F I _). eapply writes_trans; [|exact W|exact W']. rewrite Q, <- N.add_assoc. apply N.le_add_r.
Qed.

Lemma goes_sim o (dg ng : N) d s ds os r : goes (iraz_editor o) comp d s ds os r ->
  ev_datagauge d = dg -> ev_namegauge d = ng ->
  (ev_names d + N.of_nat (length os) * (hop_batch o / usize_mul ng dg + 1) < usize_mod)%N ->
  ev (fun k => forall st0 x ds0 os0, goes_with k st0 x d ds0 os0 s ->
    exists x' d', times (length os) (fun x => s_test_step (run k) (siraz_editor k o (se_now x) (se_rng x)) (se_data x) (se_answers x) (se_work x) (se_store x) (se_tab x)) x = Ok x' /\
      goes_with k st0 x' d' (ds0 ++ ds) (os0 ++ os) r /\
      ev_names d' = (ev_names d + N.of_nat (length os) * (hop_batch o / usize_mul ng dg + 1))%N).
Proof.
  induction 1 as [d s|d s d1 s1 y s2 ds os s' Ed Co Go IH]; intros Gd Gn Hn.
  - apply ev_always. intros k st0 x ds0 os0 H. exists x, d. rewrite !app_nil_r. cbn. split; [reflexivity|]. split; [exact H|lia].
  - cbn [length] in Hn. destruct (hop_gauges _ _ _ _ _ Ed) as [Gd1 Gn1].
    destruct (goes_step o d s d1 s1 y s2 Ed Co) as [En K1]; [rewrite Gd, Gn; clear - Hn; revert Hn; generalize (hop_batch o / usize_mul ng dg)%N, usize_mod; intros; nia|].
    rewrite Gd, Gn in En.
    apply (ev_imp _ _ (ev_and _ _ K1 (IH ltac:(congruence) ltac:(congruence) ltac:(rewrite En; clear - Hn; revert Hn; generalize (hop_batch o / usize_mul ng dg)%N, usize_mod; intros; nia)))).
    intros k [K2 K3] st0 x ds0 os0 H. destruct (K2 _ _ _ _ H) as (x1 & X1 & H1). cbn [times length]. rewrite X1. cbn [bind].
    destruct (K3 _ _ _ _ H1) as (x2 & d' & X2 & H2 & Q). rewrite <- !app_assoc in H2. exists x2, d'. split; [exact X2|]. split; [exact H2|].
    rewrite Q, En. clear. generalize (hop_batch o / usize_mul ng dg)%N. intros. nia.
Qed.

Theorem session_sim size dg ng changes o coord (rng : S) ds os r : fits size dg ng changes o ->
  test_seq (incremental_init ev_inc_init size dg ng coord) (iraz_editor o) comp changes rng = Ok (ds, os, r) ->
  ev (fun k => forall st : rstore, exists x,
    s_test_seq (sv_inc_init k size dg ng coord) (siraz_editor k o) (run k) changes rng st no_entries = Ok x /\
    se_answers x = os /\ se_rng x = r /\
    Forall2 (fun c d => exists t, ev_tree d = Some t /\ tree_reads (within path (fst c)) (snd c) t) (handles (se_data x)) ds /\
    inc_runs (run k) (handles (se_data x)) no_entries = Ok (se_answers x, se_tab x, se_work x) /\
    writes_numbered (size / (ng * dg) + changes * (hop_batch o / (ng * dg) + 1)) st (se_store x)).
Proof.
  intros (Sz & D & Ng & Ov & Ht & Hn) H. apply test_seq_goes in H.
  destruct H as (d & s & y & s1 & ds1 & os1 & I & C & Go & L & -> & ->). unfold incremental_init in I.
  assert (Um : usize_mul ng dg = (ng * dg)%N) by (unfold usize_mul; apply N.mod_small; exact Ov).
  assert (Hs : (size / (ng * dg) < usize_mod)%N) by (eapply N.le_lt_trans; [apply N.le_add_r|exact Hn]).
  assert (Lc : N.of_nat (length os1) = changes) by (rewrite L; apply N2Nat.id).
  destruct (init_gauged _ _ _ _ _ _ _ I) as [Gd Gn].
  assert (En : ev_names d = (size / usize_mul ng dg)%N).
  { destruct (init_home (Nsp := []) _ _ _ _ _ _ _ I) as [k K0]; [rewrite Um; exact Hs|]. destruct (K0 k (le_n k) (fun _ => None)) as (_ & _ & _ & _ & _ & Q). exact Q. }
  apply (ev_imp _ _ (ev_and _ _ (init_home _ _ _ _ _ _ _ I ltac:(rewrite Um; exact Hs))
    (ev_and _ _ (comp_step d s y s1 C) (goes_sim o dg ng d s1 ds1 os1 r Go Gd Gn ltac:(rewrite En, Um, Lc; exact Hn))))).
  intros k (K1 & K2 & K3) st. destruct (K1 st) as (sv & st1 & X1 & H1 & W1 & _).
  destruct (K2 st st st1 _ sv [] [] [] no_entries [] X1 H1) as (x1 & X2 & H2).
  { apply no_entries_sound. } { constructor. } { reflexivity. } { exact W1. }
  destruct (K3 st x1 _ _ H2) as (x2 & d' & X3 & H3 & Q). unfold s_test_seq. rewrite X2. cbn [bind]. rewrite <- L, X3.
  exists x2. split; [reflexivity|]. destruct H3 as (_ & _ & An & Rg & F & Ir & W). split; [exact An|]. split; [exact Rg|].
  split; [exact F|]. split; [exact Ir|]. rewrite Q, En, Um, Lc in W. exact W.
Qed.
End Sessions.

(** ** Work: the logs over stores are those over immutable trees *)
Section Work.
Context {E M : Type} {RM : RazMeta E M}.
Notation rstore := (store (level * list E) (tree_data E M)).
Context {K K' R Y : Type} (q : list name) (enc : K' -> K) (kcells : K' -> list (@seen (tree_data E M)))
  (irun : nat -> sraz_tree E M -> im (level * list E) (tree_data E M) K R Y)
  (mrun : raz_tree E M -> mtab K' R -> res (Y * mtab K' R * list (tree (tree_data E M)))).
Context {Fns : here}.
Hypothesis run_sim : forall t, ev (fun k => forall (st : rstore) h, tree_reads (within q st) h t -> exists tr,
    sim q enc kcells st (irun k h) (mrun t) tr).
Lemma ev_Forall {X} (P : nat -> X -> Prop) xs : (forall x, ev (fun k => P k x)) -> ev (fun k => Forall (P k) xs).
Proof.
  intros H. induction xs as [|x xs IH]; [apply ev_always; constructor|].
  apply (ev_imp _ _ (ev_and _ _ (H x) IH)). intros k [A B]. now constructor.
Qed.
Lemma same_work ts : ev (fun k => forall xs, Forall2 (fun c t => tree_reads (within q (fst c)) (snd c) t) xs ts ->
  forall rs itb lgs, inc_runs (irun k) xs no_entries = Ok (rs, itb, lgs) ->
  exists T lgs', runs mrun ts no_memos = Ok (rs, T, lgs') /\ map (@length _) lgs = map (@length _) lgs').
Proof.
  apply (ev_imp _ _ (ev_Forall _ ts run_sim)). intros k Fo xs F rs itb lgs H.
  assert (F' : Forall2 (fun c z => exists tr, sim q enc kcells (fst c) (irun k (snd c)) (mrun z) tr) xs ts).
  { clear H. induction F as [|c t xs ts Rd _ IH]; constructor; inv Fo; auto. }
  pose proof (runs_sim _ _ _ _ _ _ _ F' _ _ (trel_none enc kcells)) as Q.
  destruct (runs mrun ts no_memos) as [[[ys T] lgs']|s|]; [|congruence..].
  destruct Q as (itb' & E1 & _). rewrite E1 in H. inv H. exists T, lgs'. split; [reflexivity|].
  rewrite map_map. apply map_ext. intros l. apply map_length.
Qed.
End Work.

(** ** The computations *)
Section Folds.
Context {E G S : Type} {CG : Coord E G} {WS : WordRng S} (eqD : forall x y : tree_data E count, {x = y} + {x <> y}).
Notation eval := (eval_raz E count G).
Notation rstore := (store (level * list E) (tree_data E count)).

Lemma session_went {K R Y} good (run : nat -> sraz_tree E count -> im (level * list E) (tree_data E count) K R Y) pure :
  (forall (Nsp : here) t, ev (fun k => forall st h, rtrep st h t -> tracks eqD good st (run k h) (pure t) (fun _ _ => True))) ->
  forall comp : computor Y eval S, (forall d t r, ev_tree d = Some t -> comp d r = (do y <- pure t; Ok (y, r))) ->
  forall (q : here) size dg ng changes o coord (rng : S) ds os r, fits size dg ng changes o ->
  test_seq (incremental_init ev_inc_init size dg ng coord) (iraz_editor o) comp changes rng = Ok (ds, os, r) ->
  exists k0, forall k (st : rstore), k0 <= k -> exists x,
    s_test_seq (sv_inc_init (Nsp := q) k size dg ng coord) (siraz_editor (Nsp := q) k o) (run k) changes rng st no_entries = Ok x /\
    went_as q (name_bound size dg ng changes o) st x ds os r.
Proof.
  intros Tr comp Cp q size dg ng changes o coord rng ds os r F H.
  destruct (session_sim eqD good run pure Tr comp Cp (Nsp := q) _ _ _ _ _ _ _ _ _ _ F H) as [k0 K0]. exists k0. intros k st Hk.
  destruct (K0 k Hk st) as (x & X & A & Rg & Rd & _ & W). exists x. split; [exact X|]. split; [exact A|]. split; [exact Rg|]. split.
  - eapply Forall2_weaken; [|exact Rd]. intros c d (t & T & Q). exists t. split; [exact T|].
    exact (tree_reads_below _ _ _ _ (within_below q (fst c)) Q).
  - intros a Ha. apply W. destruct Ha as [Ha|Ha]; [now left|right]. intros (i & Hi & Q). apply Ha. exists i. split; [exact (proj2 Hi)|exact Q].
Qed.

Lemma session_work {K K' R Y} good enc kcells (run : nat -> sraz_tree E count -> im (level * list E) (tree_data E count) K R Y) pure
    (mrun : raz_tree E count -> mtab K' R -> res (Y * mtab K' R * list (tree (tree_data E count)))) (q fns : here) :
  (forall (Nsp : here) t, ev (fun k => forall st h, rtrep st h t -> tracks eqD good st (run k h) (pure t) (fun _ _ => True))) ->
  (forall t, ev (fun k => forall (st : rstore) h, tree_reads (within q st) h t -> exists tr,
    sim (Nsp := fns) q enc kcells st (run k h) (mrun t) tr)) ->
  forall comp : computor Y eval S, (forall d t r, ev_tree d = Some t -> comp d r = (do y <- pure t; Ok (y, r))) ->
  forall size dg ng changes o coord (rng : S) ds os r, fits size dg ng changes o ->
  test_seq (incremental_init ev_inc_init size dg ng coord) (iraz_editor o) comp changes rng = Ok (ds, os, r) ->
  exists k0, forall k (st : rstore) x, k0 <= k ->
    s_test_seq (sv_inc_init (Nsp := q) k size dg ng coord) (siraz_editor (Nsp := q) k o) (run k) changes rng st no_entries = Ok x ->
    forall ts, Forall2 (fun d t => ev_tree d = Some t) ds ts ->
    exists T lgs, runs mrun ts no_memos = Ok (os, T, lgs) /\ map (@length _) (se_work x) = map (@length _) lgs /\
      Forall2 (fun c t => tree_reads (fst c) (snd c) t) (handles (se_data x)) ts.
Proof.
  intros Tr Sm comp Cp size dg ng changes o coord rng ds os r F H.
  destruct (session_sim eqD good run pure Tr comp Cp (Nsp := q) _ _ _ _ _ _ _ _ _ _ F H) as [k0 K0].
  assert (Tx : exists ts, Forall2 (fun d t => ev_tree d = Some t) ds ts).
  { destruct (K0 k0 (le_n _) (fun _ => None)) as (x & _ & _ & _ & Rd & _). clear - Rd.
    induction Rd as [|c d xs ds (t & T & _) _ [ts IH]]; [exists []; constructor|]. exists (t :: ts). now constructor. }
  destruct Tx as [ts0 F0].
  destruct (same_work q enc kcells run mrun (Fns := fns) Sm ts0) as [k1 K1]. exists (k0 + k1). intros k st x Hk X ts Ft.
  assert (ts = ts0) as ->.
  { clear - F0 Ft. revert ts Ft. induction F0; intros ts Ft; inv Ft; [reflexivity|]. f_equal; [congruence|auto]. }
  destruct (K0 k ltac:(lia) st) as (x' & X' & A & Rg & Rd & I & W). rewrite X in X'. injection X' as <-.
  assert (Rt : Forall2 (fun c t => tree_reads (within q (fst c)) (snd c) t) (handles (se_data x)) ts0).
  { clear - Rd F0. revert ts0 F0. induction Rd as [|c d xs ds (t & T & Q) _ IH]; intros ts0 F0; inv F0; constructor; auto.
    rewrite T in H1. injection H1 as <-. exact Q. }
  destruct (K1 k ltac:(lia) _ Rt _ _ _ I) as (T & lgs & Rn & Eq). rewrite A in Rn. exists T, lgs. split; [exact Rn|]. split; [exact Eq|].
  eapply Forall2_weaken; [|exact Rt]. intros c t Q. exact (tree_reads_below _ _ _ _ (within_below q (fst c)) Q).
Qed.

Lemma calls_on_tree {Y} (pure : raz_tree E count -> res Y) (m : eval -> res Y) :
  (forall d, m d = do t <- unwrap "unwrap" (ev_tree d); pure t) ->
  forall d t (r : S), ev_tree d = Some t -> calling m d r = (do y <- pure t; Ok (y, r)).
Proof. intros H d t r T. unfold calling. rewrite H, T. reflexivity. Qed.
End Folds.

Section Uses.
Context {E G S : Type} {CG : Coord E G} {WS : WordRng S} (eqD : forall x y : tree_data E count, {x = y} + {x <> y}) (q fns : here).
Notation eval := (eval_raz E count G).
Notation rstore := (store (level * list E) (tree_data E count)).

Lemma list_fold {R} (eqR : forall x y : R, {x = y} + {x <> y}) (init : R) (bin : R -> E -> R) size dg ng changes o (coord : G) (rng : S) :
  fits size dg ng changes o ->
  exists k0, forall k (st : rstore), k0 <= k -> exists x,
    s_test_seq (sv_inc_init (Nsp := q) k size dg ng coord) (siraz_editor (Nsp := q) k o)
      (i_rt_fold_lr (Nsp := fns) eqD eqR k bin init) changes rng st no_entries = Ok x /\
    length (se_answers x) = Datatypes.S (N.to_nat changes) /\
    forall i y, nth_error (se_answers x) i = Some y -> exists xs g,
      edited gen_elt gen_usize size coord o i = Some (xs, g) /\ y = fold_left bin xs init.
Proof.
  intros F.
  destruct (run_iraz false size dg ng changes o (fun _ => True) (calling (ev_comp_fold init bin) : computor R eval S)
    (fun xs y => y = fold_left bin xs init) coord rng F) as (ds & os & r & H & L & A); [auto| |].
  { intros d xs g Hd _ _. destruct (comps_agree false d xs g dg ng Hd) as (X & _). exists (fold_left bin xs init).
    split; [|reflexivity]. intros r. unfold calling. rewrite X. reflexivity. }
  destruct (session_went eqD _ (fun k => i_rt_fold_lr (Nsp := fns) eqD eqR k bin init) _
    (fun Nsp => rt_lr_tracks (Fns := fns) eqD eqR (lr_node bin (fun a _ => a)) init) (calling (ev_comp_fold init bin))
    ltac:(apply calls_on_tree; reflexivity) q size dg ng changes o coord rng ds os r F H) as [k0 K0].
  exists k0. intros k st Hk. destruct (K0 k st Hk) as (x & X & <- & _). exists x. split; [exact X|]. split; [exact L|].
  intros i y Ny. destruct (A i y Ny) as (xs & g & Ex & _ & Q). eauto.
Qed.
Lemma list_max (leb : E -> E -> bool) size dg ng changes o (coord : G) (rng : S) :
  total_preorder leb -> fits size dg ng changes o ->
  exists k0, forall k (st : rstore), k0 <= k -> exists x,
    s_test_seq (sv_inc_init (Nsp := q) k size dg ng coord) (siraz_editor (Nsp := q) k o)
      (i_rt_fold_up (Nsp := fns) eqD k (fun e => e) (cmp_max leb)) changes rng st no_entries = Ok x /\
    length (se_answers x) = Datatypes.S (N.to_nat changes) /\
    forall i y, nth_error (se_answers x) i = Some y -> exists xs g m,
      edited gen_elt gen_usize size coord o i = Some (xs, g) /\ y = Some m /\ last_greatest leb xs m.
Proof.
  intros TP F.
  destruct (run_iraz false size dg ng changes o (fun _ => True) (use_find_max leb : computor (option E) eval S)
    (fun xs y => exists m, y = Some m /\ last_greatest leb xs m) coord rng F) as (ds & os & r & H & L & A); [auto| |].
  { intros d xs g Hd _ _. destruct (find_max_use (S := S) false leb d xs g dg ng TP Hd) as (x & X & _ & Q). exists x. auto. }
  destruct (session_went eqD _ (fun k => i_rt_fold_up (Nsp := fns) eqD k (fun e => e) (cmp_max leb)) _
    (fun Nsp => rt_up_tracks (Fns := fns) eqD (up_node (fun e => e) (cmp_max leb))) (use_find_max leb)
    ltac:(apply calls_on_tree; reflexivity) q size dg ng changes o coord rng ds os r F H) as [k0 K0].
  exists k0. intros k st Hk. destruct (K0 k st Hk) as (x & X & <- & _). exists x. split; [exact X|]. split; [exact L|].
  intros i y Ny. destruct (A i y Ny) as (xs & g & Ex & _ & m & Q & Lg). eauto 8.
Qed.

Lemma forall2_nth {X Y} (P : X -> Y -> Prop) xs ys : Forall2 P xs ys -> forall i y, nth_error ys i = Some y -> exists x, nth_error xs i = Some x /\ P x y.
Proof. induction 1; intros [|i] z N; cbn [nth_error] in *; try discriminate; [inv N; eauto|auto]. Qed.
Lemma same_lengths {X Y} (xs : list (list X)) (ys : list (list Y)) i x : map (@length _) xs = map (@length _) ys -> nth_error xs i = Some x ->
  exists y, nth_error ys i = Some y /\ length x = length y.
Proof.
  intros H Nx. pose proof (map_nth_error (@length _) _ _ Nx) as Q. rewrite H in Q.
  destruct (nth_error ys i) as [y|] eqn:Ny.
  - rewrite (map_nth_error (@length _) _ _ Ny) in Q. injection Q as Q. eauto.
  - apply nth_error_None in Ny. rewrite <- (map_length (@length Y)) in Ny. apply nth_error_None in Ny. congruence.
Qed.

Lemma work_up {R} (f : option R -> tree_data E count -> level -> option name -> option R -> res R) (comp : computor (option R) eval S)
    size dg changes o (coord : G) (rng : S) ds os r :
  (forall d t r, ev_tree d = Some t -> comp d r = (do y <- pure_up f t; Ok (y, r))) ->
  fits size dg 1 changes o ->
  test_seq (incremental_init ev_inc_init size dg 1 coord) (iraz_editor o) comp changes rng = Ok (ds, os, r) ->
  exists k0, forall k (st : rstore) x, k0 <= k ->
  s_test_seq (sv_inc_init (Nsp := q) k size dg 1 coord) (siraz_editor (Nsp := q) k o)
    (i_on_tree (i_fold_up_meta (Nsp := fns) eqD k f)) changes rng st no_entries = Ok x ->
  forall i lg, nth_error (se_work x) (Datatypes.S i) = Some lg ->
  exists c c' t t' pre new post,
    nth_error (handles (se_data x)) i = Some c /\ nth_error (handles (se_data x)) (Datatypes.S i) = Some c' /\
    tree_reads (fst c) (snd c) t /\ tree_reads (fst c') (snd c') t' /\
    contents t = pre ++ post /\ contents t' = pre ++ new ++ post /\
    (N.of_nat (length (elts new)) = hop_batch o /\ N.of_nat (length (marks new)) <= hop_batch o / dg + 1)%N /\
    seen_from_left 0%N post <= 64 /\
    length lg <= 1 + 2 * (seen_from_right pre + length (marks new) + seen_from_left 0%N post).
Proof.
  intros Cp F H. destruct (exp_trees size dg changes o comp coord rng ds os r F H) as (t & ts & kk & F2 & Ch & Ti).
  destruct (session_work eqD _ _ _ (fun k => i_on_tree (i_fold_up_meta (Nsp := fns) eqD k f)) _ _ q fns
    (fun Nsp => rt_up_tracks (Fns := fns) eqD f) (rt_up_sim (Fns := fns) eqD q f) comp Cp size dg 1%N changes o coord rng ds os r F H) as [k0 K0].
  exists k0. intros k st x Hk X i lg Nl. destruct (K0 k st x Hk X _ F2) as (T & lgs & Rn & Eq & Rd).
  destruct (same_lengths _ _ _ _ Eq Nl) as (lg' & Nl' & ->).
  destruct (exp_up eqD f dg (hop_batch o) kk t ts Ch Ti _ _ _ Rn i lg' Nl') as (a & a' & pre & new & post & Na & Na' & Q).
  destruct (forall2_nth _ _ _ Rd _ _ Na) as (c & Nc & Rc). destruct (forall2_nth _ _ _ Rd _ _ Na') as (c' & Nc' & Rc').
  exists c, c', a, a', pre, new, post. tauto.
Qed.
Lemma work_tfold {R} (init : E -> R) (bin : R -> R -> R) size dg changes o (coord : G) (rng : S) ds os r :
  fits size dg 1 changes o ->
  test_seq (incremental_init ev_inc_init size dg 1 coord) (iraz_editor o) (tree_fold ev_comp_tfold init bin) changes rng = Ok (ds, os, r) ->
  exists k0, forall k (st : rstore) x, k0 <= k ->
  s_test_seq (sv_inc_init (Nsp := q) k size dg 1 coord) (siraz_editor (Nsp := q) k o)
    (i_rt_fold_up (Nsp := fns) eqD k init bin) changes rng st no_entries = Ok x ->
  forall i lg, nth_error (se_work x) (Datatypes.S i) = Some lg ->
  exists c c' t t' pre new post,
    nth_error (handles (se_data x)) i = Some c /\ nth_error (handles (se_data x)) (Datatypes.S i) = Some c' /\
    tree_reads (fst c) (snd c) t /\ tree_reads (fst c') (snd c') t' /\
    contents t = pre ++ post /\ contents t' = pre ++ new ++ post /\
    (N.of_nat (length (elts new)) = hop_batch o /\ N.of_nat (length (marks new)) <= hop_batch o / dg + 1)%N /\
    seen_from_left 0%N post <= 64 /\
    length lg <= 1 + 2 * (seen_from_right pre + length (marks new) + seen_from_left 0%N post).
Proof. apply (work_up (up_node init bin)). apply calls_on_tree. reflexivity. Qed.
Lemma work_tfoldg {R} (init : list E -> res R) (bin : R -> level -> option name -> R -> res R) size dg changes o (coord : G) (rng : S) ds os r :
  fits size dg 1 changes o ->
  test_seq (incremental_init ev_inc_init size dg 1 coord) (iraz_editor o) (tree_fold_g ev_comp_tfoldg init bin) changes rng = Ok (ds, os, r) ->
  exists k0, forall k (st : rstore) x, k0 <= k ->
  s_test_seq (sv_inc_init (Nsp := q) k size dg 1 coord) (siraz_editor (Nsp := q) k o)
    (i_rt_fold_up_gauged (Nsp := fns) eqD k init bin) changes rng st no_entries = Ok x ->
  forall i lg, nth_error (se_work x) (Datatypes.S i) = Some lg ->
  exists c c' t t' pre new post,
    nth_error (handles (se_data x)) i = Some c /\ nth_error (handles (se_data x)) (Datatypes.S i) = Some c' /\
    tree_reads (fst c) (snd c) t /\ tree_reads (fst c') (snd c') t' /\
    contents t = pre ++ post /\ contents t' = pre ++ new ++ post /\
    (N.of_nat (length (elts new)) = hop_batch o /\ N.of_nat (length (marks new)) <= hop_batch o / dg + 1)%N /\
    seen_from_left 0%N post <= 64 /\
    length lg <= 1 + 2 * (seen_from_right pre + length (marks new) + seen_from_left 0%N post).
Proof. apply (work_up (up_gauged_node init bin)). apply calls_on_tree. reflexivity. Qed.
Lemma work_fold_meta {R} (eqR : forall x y : R, {x = y} + {x <> y}) (init : R) (bin : R -> E -> R) (meta : R -> level * option name -> R)
    size dg changes o (coord : G) (rng : S) ds os r :
  fits size dg 1 changes o ->
  test_seq (incremental_init ev_inc_init size dg 1 coord) (iraz_editor o) (calling (ev_comp_fold_meta init bin meta)) changes rng = Ok (ds, os, r) ->
  exists k0, forall k (st : rstore) x, k0 <= k ->
  s_test_seq (sv_inc_init (Nsp := q) k size dg 1 coord) (siraz_editor (Nsp := q) k o)
    (i_rt_fold_lr_meta (Nsp := fns) eqD eqR k bin meta init) changes rng st no_entries = Ok x ->
  forall i lg, nth_error (se_work x) (Datatypes.S i) = Some lg ->
  exists c c' t t' pre new post,
    nth_error (handles (se_data x)) i = Some c /\ nth_error (handles (se_data x)) (Datatypes.S i) = Some c' /\
    tree_reads (fst c) (snd c) t /\ tree_reads (fst c') (snd c') t' /\
    contents t = pre ++ post /\ contents t' = pre ++ new ++ post /\
    (N.of_nat (length (elts new)) = hop_batch o /\ N.of_nat (length (marks new)) <= hop_batch o / dg + 1)%N /\
    length lg <= 1 + 2 * (seen_from_right pre + length (marks new) + length (marks post)).
Proof.
  intros F H. destruct (exp_trees size dg changes o _ coord rng ds os r F H) as (t & ts & kk & F2 & Ch & Ti).
  destruct (session_work eqD _ _ _ (fun k => i_rt_fold_lr_meta (Nsp := fns) eqD eqR k bin meta init) _ _ q fns
    (fun Nsp => rt_lr_tracks (Fns := fns) eqD eqR (lr_node bin meta) init) (rt_lr_sim (Fns := fns) eqD q eqR (lr_node bin meta) init)
    (calling (ev_comp_fold_meta init bin meta)) ltac:(apply calls_on_tree; reflexivity) size dg 1%N changes o coord rng ds os r F H) as [k0 K0].
  exists k0. intros k st x Hk X i lg Nl. destruct (K0 k st x Hk X _ F2) as (T & lgs & Rn & Eq & Rd).
  destruct (same_lengths _ _ _ _ Eq Nl) as (lg' & Nl' & ->).
  destruct (exp_lr eqD eqR init bin meta dg (hop_batch o) kk t ts Ch Ti _ _ _ Rn i lg' Nl') as (a & a' & pre & new & post & Na & Na' & Q).
  destruct (forall2_nth _ _ _ Rd _ _ Na) as (c & Nc & Rc). destruct (forall2_nth _ _ _ Rd _ _ Na') as (c' & Nc' & Rc').
  exists c, c', a, a', pre, new, post. tauto.
Qed.
End Uses.

(** ** Two experiments *)
Lemma times_keeps {X} (P : X -> Prop) (g : X -> res X) : (forall x y, g x = Ok y -> P x -> P y) ->
  forall n x y, times n g x = Ok y -> P x -> P y.
Proof.
  intros H. induction n as [|n IH]; intros x y Z Px; cbn [times] in Z; [now inv Z|].
  apply bind_Ok in Z; destruct Z as (z & Q1 & Q2). eauto.
Qed.
Lemma sessions_apart {E G S} {CG : Coord E G} {WS : WordRng S} (q q' : here) {K R Y}
    (comp : sraz_tree E count -> im (level * list E) (tree_data E count) K R Y) k size dg ng changes o (coord : G) (rng : S)
    (st : store (level * list E) (tree_data E count)) tab x :
  q <> q' ->
  s_test_seq (sv_inc_init (Nsp := q') k size dg ng coord) (siraz_editor (Nsp := q') k o) comp changes rng st tab = Ok x ->
  forall h t, tree_reads (within q st) h t -> tree_reads (within q (se_store x)) h t.
Proof.
  intros D H h t. apply tree_reads_below. intros a c. unfold within.
  destruct (list_eq_dec name_eq_dec (fst a) q) as [Eq|]; [|discriminate]. intros Ha. revert Ha.
  assert (D' : fst a <> q') by congruence.
  assert (step : forall make ds ys lgs (s : store (level * list E) (tree_data E count)) tb (y : session E count G S K R Y),
    tame (Nsp := q') make -> s_test_step comp make ds ys lgs s tb = Ok y -> se_store y a = s a).
  { intros make ds ys lgs s tb y Tm Z. unfold s_test_step in Z. apply bind_Ok in Z. destruct Z as ([[sv r] s1] & Q1 & Z1).
    apply bind_Ok in Z1; destruct Z1 as ([[[v w] t1] lg] & Q2 & Z2). inv Z2. exact (tame_stays _ Tm _ _ _ Q1 a D'). }
  unfold s_test_seq in H. apply bind_Ok in H; destruct H as (x0 & Q0 & Qn).
  enough (se_store x a = st a) as -> by auto.
  refine (times_keeps (fun y => se_store y a = st a) _ _ _ _ _ Qn _).
  - intros y z Z Py. rewrite <- Py. exact (step _ _ _ _ _ _ _ (tame_hop (Nsp := q') k o _ _) Z).
  - exact (step _ _ _ _ _ _ _ (tame_inc_init (Nsp := q') k size dg ng coord rng) Q0).
Qed.
