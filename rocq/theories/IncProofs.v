(** * The memoised folds over the store answer as the pure ones. *)

From Verif Require Import Base BaseFacts Spec LevelTreeModel TreeSpec TreeProofs TreeCursorModel RazMetaModel RazModel MemoModel MemoSpec MemoProofs
  MemoHistory StoreModel StoreSpec StoreScripts StoreProofs StoreRaz StoreHistory StoreNs IncModel IncSpec.

Section Same.
Context {A : Type} (eqA : forall x y : A, {x = y} + {x <> y}).

Definition soptP (P : stree A -> Prop) (o : option (stree A)) : Prop := match o with None => True | Some x => P x end.
Fixpoint stree_induction (P : stree A -> Prop)
    (HP : forall lv d l r, soptP P l -> soptP P r -> P (TPut lv d l r)) (HC : forall lv a, P (TCell lv a)) t : P t :=
  match t with
  | TPut lv d l r =>
      HP lv d l r
        (match l with None => I | Some x => stree_induction P HP HC x end)
        (match r with None => I | Some x => stree_induction P HP HC x end)
  | TCell lv a => HC lv a
  end.

Lemma stree_same_eq (t : stree A) : forall u, stree_same eqA t u = true <-> t = u.
Proof.
  induction t as [lv d l r Hl Hr|lv a] using stree_induction; intros [lv' d' l' r'|lv' a']; simpl;
    try (split; [discriminate|congruence]).
  - rewrite !andb_true_iff, N.eqb_eq.
    assert (X : forall o o' : option (stree A), soptP (fun t => forall u, stree_same eqA t u = true <-> t = u) o ->
      (match o, o' with None, None => true | Some x, Some y => stree_same eqA x y | _, _ => false end = true <-> o = o')).
    { intros [x|] [y|] H; simpl in H; split; intros Q; try discriminate; auto.
      - f_equal. now apply H.
      - injection Q as ->. now apply H. }
    rewrite (X l l' Hl), (X r r' Hr).
    destruct (eqA d d'); split; intros Q; try (decompose [and] Q; congruence).
    injection Q as -> -> ->. repeat split; auto.
  - rewrite andb_true_iff, N.eqb_eq. destruct (loc_eq_dec a a'); split; intros Q; try (decompose [and] Q; congruence).
    injection Q as -> _. auto.
Qed.
Lemma ostree_same_eq (o p : option (stree A)) : ostree_same eqA o p = true <-> o = p.
Proof.
  destruct o, p; simpl; try (split; [discriminate|congruence]); [|tauto].
  rewrite stree_same_eq. split; congruence.
Qed.

Context {T : Type}.
Lemma holds_eq (st : store T A) a x : holds eqA st (a, x) = true <-> tree_look st (TCell 0%N a) = Some x.
Proof.
  destruct x as [[d l] r]. simpl. destruct (st a) as [[|d' l' r']|]; try (split; discriminate).
  rewrite !andb_true_iff, !ostree_same_eq. destruct (eqA d d'); split; intros Q; try (decompose [and] Q; congruence).
  injection Q as -> -> ->. auto.
Qed.
Definition held (st : store T A) (tr : list (@seen A)) : Prop := forallb (holds eqA st) tr = true.
Lemma held_app st tr tr' : held st (tr ++ tr') <-> held st tr /\ held st tr'.
Proof. unfold held. now rewrite forallb_app, andb_true_iff. Qed.
Lemma held_nil st : held st [].
Proof. reflexivity. Qed.
End Same.

Section Track.
Context {T A : Type} (eqA : forall x y : A, {x = y} + {x <> y}) {Nsp : here} {K R : Type}.
Variable good : K -> store T A -> R -> Prop.

Definition isound (tab : itab A K R) : Prop :=
  forall a e, tab a = Some e -> forall st, held eqA st (e_seen e) -> good (e_arg e) st (e_res e).

(** In the store [st], [m] answers as [p], and wherever the cells it saw are the same,
    its answer satisfies [Q]. *)
Definition tracks {X} (st : store T A) (m : im T A K R X) (p : res X) (Q : store T A -> X -> Prop) : Prop :=
  forall tab, isound tab ->
  match m st tab with
  | Ok (x, tr, tab', _) =>
      p = Ok x /\ isound tab' /\ held eqA st tr /\ forall st', held eqA st' tr -> Q st' x
  | Panic s => p = Panic s
  | Fuel => p = Fuel
  end.

Lemma tracks_ret {X} st (x : X) (Q : store T A -> X -> Prop) : (forall st', Q st' x) -> tracks st (i_ret x) (Ok x) Q.
Proof. intros H tab S. simpl. auto using held_nil. Qed.
Lemma tracks_lift {X} st (p : res X) (Q : store T A -> X -> Prop) : (forall x st', p = Ok x -> Q st' x) -> tracks st (i_lift p) p Q.
Proof. intros H tab S. unfold i_lift. destruct p; simpl; auto using held_nil. Qed.
Lemma tracks_bind {X Y} st (m : im T A K R X) p Q (f : X -> im T A K R Y) g (Q' : store T A -> Y -> Prop) :
  tracks st m p Q ->
  (forall x, p = Ok x -> tracks st (f x) (g x) (fun st' y => Q st' x -> Q' st' y)) ->
  tracks st (i_bind m f) (bind p g) Q'.
Proof.
  intros H F tab S. unfold i_bind. specialize (H tab S).
  destruct (m st tab) as [[[[x tr] tab1] lg]|s|]; [|subst p; reflexivity..].
  destruct H as (-> & S1 & H & W). cbn [bind]. specialize (F x eq_refl tab1 S1).
  destruct (f x st tab1) as [[[[y tr2] tab2] lg2]|s|]; cbn [bind]; [|exact F..].
  destruct F as (-> & S2 & H2 & W2). repeat split; auto; [now apply held_app|].
  intros st' [P1 P2]%held_app. apply W2; auto.
Qed.
Lemma tracks_weaken {X} st (m : im T A K R X) p (Q Q' : store T A -> X -> Prop) :
  tracks st m p Q -> (forall st' x, Q st' x -> Q' st' x) -> tracks st m p Q'.
Proof.
  intros H W tab S. specialize (H tab S). destruct (m st tab) as [[[[x tr] tab1] lg]|s|]; auto.
  decompose [and] H. repeat split; auto.
Qed.
Lemma tracks_enter st h (Q : store T A -> unit -> Prop) : (forall st', Q st' tt) -> tracks st (i_enter h) (Ok tt) Q.
Proof. intros H tab S. simpl. auto using held_nil. Qed.
Lemma tracks_force st h x : tree_look st h = Some x ->
  tracks st (i_force h) (Ok x) (fun st' y => tree_look st' h = Some y).
Proof.
  intros H tab S. unfold i_force. rewrite H. cbn [unwrap bind]. repeat split; auto.
  - destruct h as [|lv a]; [reflexivity|]. unfold held. cbn [forallb]. rewrite andb_true_r. now apply holds_eq.
  - intros st' P. destruct h as [|lv a]; [exact H|]. unfold held in P. cbn [forallb] in P. rewrite andb_true_r in P.
    now apply holds_eq in P.
Qed.
Lemma tracks_memo same (Hs : forall k k', same k k' = true -> k = k') st n k body p :
  (forall x, good k st x -> p = Ok x) ->
  tracks st body p (good k) -> tracks st (i_memo eqA same n k body) p (good k).
Proof.
  intros D B tab S. unfold i_memo.
  assert (Rr : match (do ' (r, s, tab', lg) <- body st tab; Ok (r, s, i_set tab' (path, n) (Entry k s r), lg)) with
     | Ok (x, tr, tab', _) => p = Ok x /\ isound tab' /\ held eqA st tr /\ forall st', held eqA st' tr -> good k st' x
     | Panic s => p = Panic s | Fuel => p = Fuel end).
  { specialize (B tab S). destruct (body st tab) as [[[[x tr] tab1] lg]|s|]; cbn [bind]; auto.
    destruct B as (-> & S1 & H & W). repeat split; auto. intros a e. unfold i_set.
    destruct (loc_eq_dec a (path, n)) as [->|Ne]; [|apply S1]. intros [= <-]. exact W. }
  destruct (tab (path, n)) as [e|] eqn:Te; [|exact Rr].
  destruct (same k (e_arg e) && forallb (holds eqA st) (e_seen e)) eqn:Sm; [|exact Rr].
  apply andb_true_iff in Sm. destruct Sm as (Sk%Hs & H). subst k.
  pose proof (S _ _ Te) as W. repeat split; auto.
Qed.
Lemma tracks_memo_opt same (Hs : forall k k', same k k' = true -> k = k') st n k body p :
  (forall x, good k st x -> p = Ok x) ->
  tracks st body p (good k) -> tracks st (i_memo_opt eqA same n k body) p (good k).
Proof. destruct n; [apply tracks_memo|]; auto. Qed.

Lemma inc_runs_sound {X Y Z} (run : X -> im T A K R Y) (p : Z -> res Y) (Q : store T A -> Y -> Prop) xs zs :
  Forall2 (fun c z => tracks (fst c) (run (snd c)) (p z) Q) xs zs ->
  forall tab, isound tab -> answer (inc_runs run xs tab) = all_ok (map p zs).
Proof.
  induction 1 as [|[st x] z xs zs H _ IH]; intros tab S; [reflexivity|]. cbn [inc_runs map all_ok fst snd] in *.
  specialize (H tab S). destruct (run x st tab) as [[[[y tr] tab1] lg]|s|]; [|rewrite H; reflexivity..].
  destruct H as (-> & S1 & _). cbn [bind]. specialize (IH tab1 S1).
  destruct (inc_runs run xs tab1) as [[[ys tab2] lgs]|s|]; cbn [bind answer] in *; now rewrite <- IH.
Qed.
Lemma tracks_any {X} st (m : im T A K R X) p Q : tracks st m p Q -> tracks st m p (fun _ _ => True).
Proof. intros H. eapply tracks_weaken; [exact H|auto]. Qed.
Lemma no_entries_sound : isound no_entries.
Proof. discriminate. Qed.
End Track.

Section Folds.
Context {T A : Type} {TU : TreeUpdate A} (eqA : forall x y : A, {x = y} + {x <> y}) {Nsp : here} {R : Type}.

Section Up.
Variable f : option R -> A -> level -> option name -> option R -> res R.
Definition up_good (h : stree A) (st : store T A) (x : R) : Prop :=
  forall t, rep st h t -> t_fold_up_meta f t = Ok x.

Lemma up_tracks k : forall st h t, rep st h t -> t_size t <= k ->
  tracks eqA up_good st (i_fold_up_meta eqA k f h) (t_fold_up_meta f t) (up_good h).
Proof.
  induction k as [|k IH]; intros st h t Rp Sz; [destruct t; simpl in Sz; lia|].
  apply rep_eq in Rp. destruct Rp as (E1 & E2 & sl & sr & Lk & Rl & Rr).
  destruct t as [lv nm d l r]. cbn [t_level t_name t_peek t_left t_right] in *. cbn [i_fold_up_meta t_fold_up_meta].
  change (tracks eqA up_good st (i_bind (i_enter h) (fun _ =>
      inc ' (d0, l0, r0) <- i_force h;
      inc rl <- match l0 with
                | None => i_ret None
                | Some t1 =>
                    inc x <- i_memo_opt eqA (stree_same eqA) (fork_left (st_name h)) t1 (i_fold_up_meta eqA k f t1);
                    i_ret (Some x)
                end;
      inc rr <- match r0 with
                | None => i_ret None
                | Some t2 =>
                    inc x <- i_memo_opt eqA (stree_same eqA) (fork_right (st_name h)) t2 (i_fold_up_meta eqA k f t2);
                    i_ret (Some x)
                end;
      i_lift (f rl d0 (st_level h) (st_name h) rr)))
    (bind (Ok tt) (fun _ => do ' (d0, _, _) <- Ok (d, sl, sr);
      do rl <- match l with None => Ok None | Some t1 => do x <- t_fold_up_meta f t1; Ok (Some x) end;
      do rr <- match r with None => Ok None | Some t2 => do x <- t_fold_up_meta f t2; Ok (Some x) end;
      f rl d0 lv nm rr)) (up_good h)).
  apply (tracks_bind eqA up_good st _ _ (fun _ _ => True)); [now apply tracks_enter|].
  intros [] _. eapply tracks_bind; [apply tracks_force, Lk|]. intros x [= <-].
  assert (G : forall n o so, orep st so o -> match o with None => 0 | Some t => t_size t end <= k ->
    tracks eqA up_good st
      match so with
      | None => i_ret None
      | Some t1 => inc x <- i_memo_opt eqA (stree_same eqA) n t1 (i_fold_up_meta eqA k f t1); i_ret (Some x)
      end
      match o with None => Ok None | Some t1 => do x <- t_fold_up_meta f t1; Ok (Some x) end
      (fun st' y => match so with None => y = None | Some s1 => exists x, y = Some x /\ up_good s1 st' x end)).
  { intros n [t1|] [s1|] Ro So; simpl in Ro; try contradiction; [|now apply tracks_ret].
    eapply tracks_bind; [apply tracks_memo_opt; [intros ? ? Q; now apply stree_same_eq in Q| |now apply IH]|].
    - intros x W. now apply W.
    - intros x _. apply tracks_ret. intros st' W. eauto. }
  eapply tracks_bind; [apply (G _ l); auto; simpl in Sz; lia|]. intros rl _.
  eapply tracks_bind; [apply (G _ r); auto; simpl in Sz; lia|]. intros rr _.
  rewrite E1, E2. apply tracks_lift. intros x st' Fx Hr Hl Lk' _ t' Rp'.
  apply rep_eq in Rp'. destruct Rp' as (E1' & E2' & sl' & sr' & Lk2 & Rl' & Rr').
  rewrite Lk' in Lk2. injection Lk2 as Ed -> ->. destruct t' as [lv' nm' d' l' r'].
  cbn [t_level t_name t_peek t_left t_right] in *. cbn [t_fold_up_meta]. subst d'.
  assert (Gl : match l' with None => Ok None | Some t1 => do x <- t_fold_up_meta f t1; Ok (Some x) end = Ok rl).
  { destruct l', sl'; simpl in Rl'; try contradiction; [|now subst]. destruct Hl as (y & -> & W). now rewrite (W _ Rl'). }
  assert (Gr : match r' with None => Ok None | Some t1 => do x <- t_fold_up_meta f t1; Ok (Some x) end = Ok rr).
  { destruct r', sr'; simpl in Rr'; try contradiction; [|now subst]. destruct Hr as (y & -> & W). now rewrite (W _ Rr'). }
  rewrite Gl, Gr. cbn [bind]. congruence.
Qed.
End Up.

Section LR.
Variable eqR : forall x y : R, {x = y} + {x <> y}.
Variable f : R -> A -> level -> option name -> R.
Definition lr_good (k : stree A * option name * R) (st : store T A) (x : R) : Prop :=
  forall t, rep st (fst (fst k)) t -> t_fold_lr_meta f t (snd (fst k)) (snd k) = x.

Lemma slr_same_eq (k k' : stree A * option name * R) : slr_same eqA eqR k k' = true <-> k = k'.
Proof.
  destruct k as [[t s] a], k' as [[t' s'] a']. unfold slr_same. simpl. rewrite !andb_true_iff, stree_same_eq.
  destruct (oname_eq_dec s s'), (eqR a a'); split; intros Q; try (decompose [and] Q; congruence).
  injection Q as -> _ _. auto.
Qed.

Lemma lr_tracks k : forall st h t s a, rep st h t -> t_size t <= k ->
  tracks eqA lr_good st (i_fold_lr_meta eqA eqR k f h s a) (Ok (t_fold_lr_meta f t s a)) (lr_good (h, s, a)).
Proof.
  induction k as [|k IH]; intros st h t s a Rp Sz; [destruct t; simpl in Sz; lia|].
  apply rep_eq in Rp. destruct Rp as (E1 & E2 & sl & sr & Lk & Rl & Rr).
  destruct t as [lv nm d l r]. cbn [t_level t_name t_peek t_left t_right] in *. cbn [i_fold_lr_meta].
  assert (Ep : Ok (t_fold_lr_meta f (Node lv nm d l r) s a) =
    bind (Ok tt) (fun _ => do ' (d0, sl, sr) <- Ok (d, sl, sr);
      match sl, sr with
      | None, None => Ok (f a d0 lv s)
      | _, _ =>
          do a1 <- Ok match l with None => a | Some t1 => t_fold_lr_meta f t1 s a end;
          Ok match r with None => f a1 d0 lv nm | Some t2 => t_fold_lr_meta f t2 nm (f a1 d0 lv nm) end
      end)).
  { cbn [bind t_fold_lr_meta]. destruct l, sl, r, sr; simpl in Rl, Rr; try contradiction; reflexivity. }
  rewrite Ep. clear Ep.
  apply (tracks_bind eqA lr_good st _ _ (fun _ _ => True)); [now apply tracks_enter|].
  intros [] _. eapply tracks_bind; [apply tracks_force, Lk|]. intros x [= <-].
  assert (G : forall n o so s a, orep st so o -> match o with None => 0 | Some t => t_size t end <= k ->
    tracks eqA lr_good st
      match so with
      | None => i_ret a
      | Some t1 => i_memo_opt eqA (slr_same eqA eqR) n (t1, s, a) (i_fold_lr_meta eqA eqR k f t1 s a)
      end
      (Ok match o with None => a | Some t1 => t_fold_lr_meta f t1 s a end)
      (fun st' y => match so with None => y = a | Some s1 => lr_good (s1, s, a) st' y end)).
  { intros n [t1|] [s1|] s0 a0 Ro So; simpl in Ro; try contradiction; [|now apply tracks_ret].
    apply tracks_memo_opt; [intros ? ? Q; now apply slr_same_eq in Q| |now apply IH].
    intros x W. f_equal. now apply W. }
  assert (Fin : forall o st' l' (s1 : option (stree A)) a0 y, orep st' s1 o ->
     match s1 with None => y = a0 | Some s2 => lr_good (s2, l', a0) st' y end ->
     match o with None => a0 | Some t1 => t_fold_lr_meta f t1 l' a0 end = y).
  { intros [t1|] st' l' [s1|] a0 y Ro H; simpl in Ro; try contradiction; [now apply H|now subst]. }
  assert (Br : tracks eqA lr_good st
     (inc a1 <- match sl with
                | None => i_ret a
                | Some t1 => i_memo_opt eqA (slr_same eqA eqR) (fork_left (st_name h)) (t1, s, a) (i_fold_lr_meta eqA eqR k f t1 s a)
                end;
      match sr with
      | None => i_ret (f a1 d (st_level h) (st_name h))
      | Some t2 => i_memo_opt eqA (slr_same eqA eqR) (fork_right (st_name h)) (t2, st_name h, f a1 d (st_level h) (st_name h))
            (i_fold_lr_meta eqA eqR k f t2 (st_name h) (f a1 d (st_level h) (st_name h)))
      end)
     (do a1 <- Ok match l with None => a | Some t1 => t_fold_lr_meta f t1 s a end;
      Ok match r with None => f a1 d lv nm | Some t2 => t_fold_lr_meta f t2 nm (f a1 d lv nm) end)
     (fun st' y => (sl <> None \/ sr <> None) -> tree_look st' h = Some (d, sl, sr) -> True -> lr_good (h, s, a) st' y)).
  { eapply tracks_bind; [apply (G _ l); auto; simpl in Sz; lia|]. intros a1 _. rewrite E1, E2.
    eapply tracks_weaken; [apply (G _ r); auto; simpl in Sz; lia|].
    intros st' y Hr Hl Ne Lk' _ t' Rp'. cbn [fst snd] in *.
    apply rep_eq in Rp'. destruct Rp' as (E1' & E2' & sl' & sr' & Lk2 & Rl' & Rr').
    rewrite Lk' in Lk2. injection Lk2 as Ed <- <-. destruct t' as [lv' nm' d' l' r'].
    cbn [t_level t_name t_peek t_left t_right] in *. subst d'.
    pose proof (Fin _ _ _ _ _ _ Rl' Hl) as Gl. pose proof (Fin _ _ _ _ _ _ Rr' Hr) as Gr.
    assert (lv' = lv) by congruence. assert (nm' = nm) by congruence. clear E1' E2'. subst lv' nm'.
    cbn [t_fold_lr_meta].
    destruct l', sl, r', sr; simpl in Rl', Rr'; try contradiction; try (rewrite Gl; exact Gr).
    destruct Ne; congruence. }
  destruct sl as [sl|], sr as [sr|].
  1-3: eapply tracks_weaken; [exact Br|]; intros st' y W L1 L2; apply W; auto; (left; discriminate) || (right; discriminate).
  rewrite E1. apply tracks_ret. intros st' Lk' _ t' Rp'. cbn [fst snd] in *.
  apply rep_eq in Rp'. destruct Rp' as (E1' & E2' & sl' & sr' & Lk2 & Rl' & Rr').
  rewrite Lk' in Lk2. injection Lk2 as Ed <- <-. destruct t' as [lv' nm' d' l' r'].
  cbn [t_level t_name t_peek t_left t_right] in *. destruct l', r'; simpl in Rl', Rr'; try contradiction.
  cbn [t_fold_lr_meta]. congruence.
Qed.
End LR.
End Folds.

Lemma ev_Forall2 {X Y} (P : nat -> X -> Y -> Prop) xs ys :
  Forall2 (fun x y => ev (fun k => P k x y)) xs ys -> ev (fun k => Forall2 (P k) xs ys).
Proof.
  induction 1 as [|x y xs ys H _ IH]; [apply ev_always; constructor|].
  apply (ev_imp _ _ (ev_and _ _ H IH)). intros k []. now constructor.
Qed.
Lemma ev_le m : ev (fun k => m <= k).
Proof. now exists m. Qed.

(** ** Histories of runs *)
Section Runs.
Context {T A : Type} {TU : TreeUpdate A} (eqA : forall x y : A, {x = y} + {x <> y}) {Nsp : here} {R : Type}.
Lemma reads_rep (st : store T A) h t : reads st h t -> rep st h t.
Proof. intros [k H]. now apply read_rep in H. Qed.
Lemma up_runs (f : option R -> A -> level -> option name -> option R -> res R) (xs : list (store T A * stree A)) ts :
  Forall2 (fun c t => reads (fst c) (snd c) t) xs ts ->
  ev (fun k => answer (inc_runs (i_fold_up_meta eqA k f) xs no_entries) = all_ok (map (t_fold_up_meta f) ts)).
Proof.
  intros F. apply (ev_imp (fun k => Forall2 (fun c t => tracks eqA (up_good f) (fst c) (i_fold_up_meta eqA k f (snd c)) (t_fold_up_meta f t) (fun _ _ => True)) xs ts)).
  - apply ev_Forall2. eapply Forall2_weaken; [|exact F]. intros c t Rd. apply reads_rep in Rd.
    apply (ev_imp _ _ (ev_le (t_size t))). intros k Hk. eapply tracks_any, up_tracks; eauto.
  - intros k H. eapply inc_runs_sound; [exact H|apply no_entries_sound].
Qed.
Lemma lr_runs (eqR : forall x y : R, {x = y} + {x <> y}) (f : R -> A -> level -> option name -> R)
    (xs : list (store T A * (stree A * option name * R))) ts :
  Forall2 (fun c t => reads (fst c) (fst (fst (snd c))) (fst (fst t)) /\ snd (fst (snd c)) = snd (fst t) /\ snd (snd c) = snd t) xs ts ->
  ev (fun k => answer (inc_runs (fun c => i_fold_lr_meta eqA eqR k f (fst (fst c)) (snd (fst c)) (snd c)) xs no_entries) =
    Ok (map (fun c => t_fold_lr_meta f (fst (fst c)) (snd (fst c)) (snd c)) ts)).
Proof.
  intros F. apply (ev_imp (fun k => Forall2 (fun c t => tracks eqA (lr_good f) (fst c)
    (i_fold_lr_meta eqA eqR k f (fst (fst (snd c))) (snd (fst (snd c))) (snd (snd c)))
    (Ok (t_fold_lr_meta f (fst (fst t)) (snd (fst t)) (snd t))) (fun _ _ => True)) xs ts)).
  - apply ev_Forall2. eapply Forall2_weaken; [|exact F]. intros [st [[h s] a]] [[t s'] a'] (Rd & Es & Ea). cbn [fst snd] in *. subst s' a'. apply reads_rep in Rd.
    apply (ev_imp _ _ (ev_le (t_size t))). intros k Hk. eapply tracks_any, lr_tracks; eauto.
  - intros k H. rewrite <- all_ok_Ok. exact (inc_runs_sound _ _ _ _ _ _ _ H _ (no_entries_sound _ _)).
Qed.
End Runs.

Section Raz.
Context {E M : Type} {RM : RazMeta E M} (eqD : forall x y : tree_data E M, {x = y} + {x <> y}) {Fns : here} {R : Type}.
Notation rstore := (store (level * list E) (tree_data E M)).
Lemma tree_reads_rtrep (Nsp : here) (st : rstore) h t : tree_reads st h t -> rtrep st h t.
Proof.
  intros [Em H]. split; [exact Em|]. destruct (srt_tree h), (rt_tree t); simpl; try contradiction; auto.
  exact (reads_rep _ _ _ H).
Qed.
Lemma rt_up_tracks (f : option R -> tree_data E M -> level -> option name -> option R -> res R) t :
  ev (fun k => forall (st : rstore) h, rtrep st h t ->
    tracks eqD (up_good f) st (i_on_tree (i_fold_up_meta eqD k f) h) (pure_up f t) (fun _ _ => True)).
Proof.
  apply (ev_imp _ _ (ev_le (match rt_tree t with None => 0 | Some tr => t_size tr end))). intros k Hk st h [_ H].
  unfold i_on_tree, pure_up. destruct (srt_tree h), (rt_tree t); simpl in H; try contradiction; [|now apply tracks_ret].
  eapply tracks_bind; [apply up_tracks; eauto|]. intros x _. now apply tracks_ret.
Qed.
Definition pure_lr (f : R -> tree_data E M -> level -> option name -> R) (init : R) (t : raz_tree E M) : R :=
  match rt_tree t with
  | None => init
  | Some tr => t_fold_lr_meta f tr (Some (NStr "start")) init
  end.
Lemma rt_lr_tracks (eqR : forall x y : R, {x = y} + {x <> y}) (f : R -> tree_data E M -> level -> option name -> R) init t :
  ev (fun k => forall (st : rstore) h, rtrep st h t ->
    tracks eqD (lr_good f) st (i_rt_lr eqD eqR k f init h) (Ok (pure_lr f init t)) (fun _ _ => True)).
Proof.
  apply (ev_imp _ _ (ev_le (match rt_tree t with None => 0 | Some tr => t_size tr end))). intros k Hk st h [_ H].
  unfold i_rt_lr, pure_lr. destruct (srt_tree h), (rt_tree t); simpl in H; try contradiction; [|now apply tracks_ret].
  eapply tracks_any, lr_tracks; eauto.
Qed.

(** Any computation that keeps track of what it sees. *)
Section Any.
Context {K Y : Type} (good : K -> rstore -> R -> Prop) (run : nat -> sraz_tree E M -> im (level * list E) (tree_data E M) K R Y)
  (pure : raz_tree E M -> res Y).
Hypothesis run_tracks : forall t, ev (fun k => forall st h, rtrep st h t ->
  tracks eqD good st (run k h) (pure t) (fun _ _ => True)).

Lemma rt_runs (Nsp : here) (xs : list (rstore * sraz_tree E M)) ts :
  Forall2 (fun c t => tree_reads (fst c) (snd c) t) xs ts ->
  ev (fun k => answer (inc_runs (run k) xs no_entries) = all_ok (map pure ts)).
Proof.
  intros F. apply (ev_imp (fun k => Forall2 (fun c t => tracks eqD good (fst c) (run k (snd c)) (pure t) (fun _ _ => True)) xs ts)).
  - apply ev_Forall2. eapply Forall2_weaken; [|exact F]. intros c t Rd. apply (tree_reads_rtrep Nsp) in Rd.
    apply (ev_imp _ _ (run_tracks t)). auto.
  - intros k H. eapply inc_runs_sound; [exact H|apply no_entries_sound].
Qed.

Lemma pi_run_sim (Nsp : here) cs : forall p os p', pi_run pure p cs = Ok (os, p') -> names_ok_run p (edits cs) ->
  ev (fun k => forall st sp tab, prep st sp p -> uniq (pnames p) -> isound eqD good tab ->
    exists sp' st' tab', si_run (run k) k sp cs st tab = Ok (os, sp', st', tab') /\
      prep st' sp' p' /\ upto (pnames p ++ flat_map c_names (edits cs)) st st').
Proof.
  induction cs as [|[c|i] cs IH]; intros p os p' Z N; cbn [pi_run si_run] in *.
  - inv Z. apply ev_always. intros k st sp tab P U S. exists sp, st, tab. repeat split; auto.
  - apply bind_Ok in Z. destruct Z as ([o p1] & Z1 & Z). apply bind_Ok in Z1. destruct Z1 as ([x p1'] & Z1 & Q). inv Q.
    apply bind_Ok in Z. destruct Z as ([os2 p2] & Z2 & Z). inv Z.
    cbn [edits flat_map app names_ok_run] in N. destruct N as [N1 N2]. rewrite Z1 in N2.
    apply (ev_imp _ _ (ev_and _ _ (step_sim _ _ _ _ Z1) (IH _ _ _ Z2 N2))). intros k [K1 K2] st sp tab P Un S.
    destruct (names_ok_uniq p c N1 Un) as [Un1 Cl].
    destruct (K1 st sp P Cl Un1) as (sp1 & st1 & E1 & R1 & U1 & S1). rewrite E1. cbn [bind].
    destruct (K2 st1 sp1 tab R1) as (sp2 & st2 & tab2 & E2 & R2 & U2); [names|exact S|]. rewrite E2. cbn [bind].
    exists sp2, st2, tab2. split; [reflexivity|]. split; [exact R2|]. cbn [edits flat_map app]. fold (edits cs).
    apply (upto_trans _ _ st1); [eapply upto_sub; [|exact U1]|eapply upto_sub; [|exact U2]]; names.
  - apply bind_Ok in Z. destruct Z as ([o p1] & Z1 & Z). apply bind_Ok in Z. destruct Z as ([os2 p2] & Z2 & Z). inv Z.
    destruct (nth_error p i) as [[t|z|]|] eqn:Ni.
    1: { apply bind_Ok in Z1. destruct Z1 as (y & Z1 & Q). inv Q.
      apply (ev_imp _ _ (ev_and _ _ (run_tracks t) (IH _ _ _ Z2 N))). intros k [K1 K2] st sp tab P Un S.
      pose proof (nth_prep st sp p1 i P) as X. rewrite Ni in X. destruct (nth_error sp i) as [[h| |]|]; try contradiction.
      simpl in X. specialize (K1 st h X tab S). rewrite Z1 in K1.
      destruct (run k h st tab) as [[[[y' tr] tab1] lg]|s|]; try discriminate. destruct K1 as ([= <-] & S1 & _). cbn [bind].
      destruct (K2 st sp tab1 P Un S1) as (sp2 & st2 & tab2 & E2 & R2 & U2). rewrite E2. cbn [bind].
      exists sp2, st2, tab2. auto. }
    all: inv Z1; apply (ev_imp _ _ (IH _ _ _ Z2 N)); intros k K2 st sp tab P Un S;
      pose proof (nth_prep st sp p1 i P) as X; rewrite Ni in X;
      destruct (K2 st sp tab P Un S) as (sp2 & st2 & tab2 & E2 & R2 & U2);
      exists sp2, st2, tab2; (split; [|auto]);
      destruct (nth_error sp i) as [[h| |]|]; try contradiction; cbn [bind]; rewrite E2; reflexivity.
Qed.
End Any.
End Raz.
