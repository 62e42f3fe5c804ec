(** * When all cells are in one namespace, the engine over the store works exactly as the
      one over immutable trees: it enters the same nodes. *)

From Verif Require Import Base BaseFacts Spec LevelTreeModel TreeSpec TreeProofs TreeCursorModel RazMetaModel RazModel MemoModel
  MemoSpec MemoProofs MemoHistory StoreModel StoreSpec StoreScripts StoreProofs StoreRaz StoreHistory StoreNs IncModel IncSpec
  IncProofs.

Section Tree.
Context {T A : Type} (eqA : forall x y : A, {x = y} + {x <> y}) (q : list name).
Implicit Types (st : store T A).

(** The handle of a tree, and the cells of its nodes. *)
Fixpoint handle (t : tree A) : stree A :=
  match t with
  | Node lv (Some n) _ _ _ => TCell lv (q, n)
  | Node lv None d l r =>
      TPut lv d match l with None => None | Some x => Some (handle x) end
                match r with None => None | Some x => Some (handle x) end
  end.
Definition ohandle (o : option (tree A)) : option (stree A) := match o with None => None | Some x => Some (handle x) end.
Fixpoint cells (t : tree A) : list (@seen A) :=
  match t with
  | Node lv nm d l r =>
      match nm with
      | None => []
      | Some n => [((q, n), (d, match l with None => None | Some x => Some (handle x) end,
                                match r with None => None | Some x => Some (handle x) end))]
      end
      ++ match l with None => [] | Some x => cells x end
      ++ match r with None => [] | Some x => cells x end
  end.
Definition ocells (o : option (tree A)) : list (@seen A) := match o with None => [] | Some x => cells x end.
Lemma cells_eq lv nm d l r : cells (Node lv nm d l r) =
  match nm with None => [] | Some n => [((q, n), (d, ohandle l, ohandle r))] end ++ ocells l ++ ocells r.
Proof. reflexivity. Qed.
Lemma handle_level t : st_level (handle t) = t_level t.
Proof. now destruct t as [lv [n|] d l r]. Qed.
Lemma handle_name t : st_name (handle t) = t_name t.
Proof. now destruct t as [lv [n|] d l r]. Qed.
Lemma handle_look st t : held eqA st (cells t) -> tree_look st (handle t) = Some (t_peek t, ohandle (t_left t), ohandle (t_right t)).
Proof.
  destruct t as [lv [n|] d l r]; [|reflexivity]. rewrite cells_eq. intros H. apply held_app in H. destruct H as [H _].
  unfold held in H. cbn [forallb] in H. rewrite andb_true_r in H. apply holds_eq in H. exact H.
Qed.

Lemma homed st t : forall h, rep (within q st) h t -> h = handle t /\ held eqA st (cells t).
Proof.
  induction t as [lv nm d l r IHl IHr] using tree_induction. intros h H. apply rep_eq in H.
  cbn [t_level t_name t_peek t_left t_right] in H. destruct H as (El & En & sl & sr & Lk & Hl & Hr).
  assert (G : forall o so, optP (fun t => forall h, rep (within q st) h t -> h = handle t /\ held eqA st (cells t)) o ->
    orep (within q st) so o -> so = ohandle o /\ held eqA st (ocells o)).
  { intros [t|] [s|] I X; simpl in X; try contradiction; [|now split].
    destruct (I _ X) as [-> Y]. now split. }
  destruct (G _ _ IHl Hl) as [-> Cl]. destruct (G _ _ IHr Hr) as [-> Cr]. clear G IHl IHr Hl Hr.
  rewrite cells_eq, !held_app.
  destruct h as [lv' d' l' r'|lv' [p n]]; simpl in El, En; subst lv nm.
  - injection Lk as -> -> ->. repeat split; auto.
  - simpl in Lk. unfold within in Lk. cbn [fst] in Lk.
    destruct (list_eq_dec name_eq_dec p q) as [->|]; [|discriminate]. split; [reflexivity|]. split; [|auto].
    unfold held. cbn [forallb]. rewrite andb_true_r. apply holds_eq. exact Lk.
Qed.

Lemma handle_inj st t : forall t', handle t = handle t' -> held eqA st (cells t) -> held eqA st (cells t') -> t = t'.
Proof.
  induction t as [lv nm d l r IHl IHr] using tree_induction. intros [lv' nm' d' l' r'] E H H'.
  pose proof (handle_look _ _ H) as L. pose proof (handle_look _ _ H') as L'. rewrite E, L' in L.
  cbn [t_peek t_left t_right] in L. injection L as -> El Er.
  pose proof (handle_level (Node lv nm d l r)) as Q1. pose proof (handle_name (Node lv nm d l r)) as Q2.
  rewrite E, handle_level in Q1. rewrite E, handle_name in Q2. simpl in Q1, Q2. subst lv' nm'.
  rewrite cells_eq in H, H'. apply held_app in H, H'. destruct H as [_ H], H' as [_ H']. apply held_app in H, H'.
  assert (G : forall o o', optP (fun t => forall t', handle t = handle t' -> held eqA st (cells t) -> held eqA st (cells t') -> t = t') o ->
    ohandle o' = ohandle o -> held eqA st (ocells o) -> held eqA st (ocells o') -> o = o').
  { intros [x|] [x'|] I X Y Z; simpl in *; try discriminate; auto. injection X as X. f_equal. now apply I. }
  f_equal; [apply (G _ _ IHl)|apply (G _ _ IHr)]; tauto.
Qed.

(** ** Tables and computations that correspond *)
Section Sim.
Context {Nsp : here} {K K' R : Type} (enc : K' -> K) (kcells : K' -> list (@seen A)).
Definition trel (itb : itab A K R) (tab : mtab K' R) : Prop :=
  forall n, match itb (path, n), tab n with
            | None, None => True
            | Some e, Some (k, r) => e_arg e = enc k /\ e_seen e = kcells k /\ e_res e = r
            | _, _ => False
            end.
Definition sim {X} st (i : im T A K R X) (m : mtab K' R -> res (X * mtab K' R * list (tree A))) (tr : list (@seen A)) : Prop :=
  forall itb tab, trel itb tab ->
  match m tab with
  | Ok (x, tab', lg) => exists itb', i st itb = Ok (x, tr, itb', map handle lg) /\ trel itb' tab'
  | Panic s => i st itb = Panic s
  | Fuel => i st itb = Fuel
  end.
Lemma sim_memo same same' (Hs : forall k k', same k k' = true <-> k = k') (Hs' : forall k k', same' k k' = true <-> k = k') st n k i m :
  held eqA st (kcells k) -> (forall k', enc k = enc k' -> held eqA st (kcells k') -> k = k') ->
  sim st i m (kcells k) -> sim st (i_memo eqA same n (enc k) i) (memo same' n k m) (kcells k).
Proof.
  intros Hk Inj H itb tab S. unfold i_memo, memo.
  assert (Rr : match (do ' (r, tab', lg) <- m tab; Ok (r, memo_set tab' n k r, lg)) with
    | Ok (x, tab', lg) => exists itb',
        (do ' (r, s, tab', lg) <- i st itb; Ok (r, s, i_set tab' (path, n) (Entry (enc k) s r), lg)) = Ok (x, kcells k, itb', map handle lg)
        /\ trel itb' tab'
    | Panic s => (do ' (r, s, tab', lg) <- i st itb; Ok (r, s, i_set tab' (path, n) (Entry (enc k) s r), lg)) = Panic s
    | Fuel => (do ' (r, s, tab', lg) <- i st itb; Ok (r, s, i_set tab' (path, n) (Entry (enc k) s r), lg)) = Fuel
    end).
  { specialize (H itb tab S). destruct (m tab) as [[[x tab'] lg]|s|]; cbn [bind]; [|rewrite H; reflexivity..].
    destruct H as (itb' & -> & S'). cbn [bind]. eexists. split; [reflexivity|]. intros n'. unfold i_set, memo_set.
    specialize (S' n'). destruct (name_eq_dec n' n) as [->|Ne].
    - destruct (loc_eq_dec (path, n) (path, n)); [simpl; auto|congruence].
    - destruct (loc_eq_dec (path, n') (path, n)); [congruence|exact S']. }
  pose proof (S n) as Sn. destruct (itb (path, n)) as [e|], (tab n) as [[k' r]|]; try contradiction; [|exact Rr].
  destruct Sn as (Ea & Es & Er). rewrite Ea, Es.
  destruct (same' k k') eqn:Sm.
  - apply Hs' in Sm. subst k'. assert (X : same (enc k) (enc k) = true) by now apply Hs. rewrite X. unfold held in Hk.
    rewrite Hk. cbn [andb]. exists itb. rewrite Er. split; [reflexivity|exact S].
  - destruct (same (enc k) (enc k') && forallb (holds eqA st) (kcells k')) eqn:Q; [|exact Rr].
    apply andb_true_iff in Q. destruct Q as [Q1%Hs Q2]. assert (k = k') by now apply Inj.
    apply Hs' in H0. congruence.
Qed.
Lemma sim_memo_opt same same' (Hs : forall k k', same k k' = true <-> k = k') (Hs' : forall k k', same' k k' = true <-> k = k') st n k i m :
  held eqA st (kcells k) -> (forall k', enc k = enc k' -> held eqA st (kcells k') -> k = k') ->
  sim st i m (kcells k) -> sim st (i_memo_opt eqA same n (enc k) i) (memo_opt same' n k m) (kcells k).
Proof. destruct n; [now apply sim_memo|auto]. Qed.
Definition m_bind {X Y} (m : mtab K' R -> res (X * mtab K' R * list (tree A))) (g : X -> mtab K' R -> res (Y * mtab K' R * list (tree A)))
    : mtab K' R -> res (Y * mtab K' R * list (tree A)) :=
  fun tab => do ' (x, tab1, lg1) <- m tab; do ' (y, tab2, lg2) <- g x tab1; Ok (y, tab2, lg1 ++ lg2).
Lemma sim_bind {X Y} st (i : im T A K R X) m tr (j : X -> im T A K R Y) g tr' :
  sim st i m tr -> (forall x, sim st (j x) (g x) tr') -> sim st (i_bind i j) (m_bind m g) (tr ++ tr').
Proof.
  intros H F itb tab S. unfold i_bind, m_bind. specialize (H itb tab S).
  destruct (m tab) as [[[x tab1] lg1]|s|]; cbn [bind]; [|rewrite H; reflexivity..].
  destruct H as (itb1 & -> & S1). cbn [bind]. specialize (F x itb1 tab1 S1).
  destruct (g x tab1) as [[[y tab2] lg2]|s|]; cbn [bind]; [|rewrite F; reflexivity..].
  destruct F as (itb2 & -> & S2). cbn [bind]. exists itb2. rewrite map_app. auto.
Qed.
End Sim.

Lemma i_bind_eq {K R X Y} (m : im T A K R X) (g : X -> im T A K R Y) st tab : i_bind m g st tab =
  do ' (x, s1, tab1, lg1) <- m st tab; do ' (y, s2, tab2, lg2) <- g x st tab1; Ok (y, s1 ++ s2, tab2, lg1 ++ lg2).
Proof. reflexivity. Qed.
Lemma i_force_look {K R} st h x (itb : itab A K R) : tree_look st h = Some x ->
  i_force h st itb = Ok (x, match h with TPut _ _ _ _ => [] | TCell _ a => [(a, x)] end, itb, []).
Proof. intros E. unfold i_force. now rewrite E. Qed.

Lemma up_sim {Nsp : here} {R} (f : option R -> A -> level -> option name -> option R -> res R) st k : forall t,
  held eqA st (cells t) -> t_size t <= k ->
  sim (R := R) handle cells st (i_fold_up_meta eqA k f (handle t)) (m_fold_up_meta eqA f t) (cells t).
Proof.
  induction k as [|k IH]; intros t H Sz; [destruct t; simpl in Sz; lia|].
  intros itb tab S. pose proof (handle_look _ _ H) as Lk.
  cbn [i_fold_up_meta]. rewrite i_bind_eq. cbn [i_enter bind]. rewrite i_bind_eq.
  rewrite (i_force_look _ _ _ itb Lk). cbn [bind]. rewrite handle_name, handle_level.
  destruct t as [lv nm d l r]. cbn [t_level t_name t_peek t_left t_right m_fold_up_meta] in *.
  rewrite cells_eq in H. apply held_app in H. destruct H as [_ H]. apply held_app in H. destruct H as [Hl Hr].
  assert (G : forall n o, held eqA st (ocells o) -> match o with None => 0 | Some t => t_size t end <= k ->
    sim (R := R) handle cells st
      match ohandle o with
      | None => i_ret None
      | Some t1 => inc x <- i_memo_opt eqA (stree_same eqA) n t1 (i_fold_up_meta eqA k f t1); i_ret (Some x)
      end
      (fun tab => match o with
      | None => Ok (None, tab, [])
      | Some t1 => do ' (x, tab1, lg1) <- memo_opt (tree_same eqA) n t1 (m_fold_up_meta eqA f t1) tab; Ok (Some x, tab1, lg1)
      end) (ocells o)).
  { intros n [t1|] Ho So itb1 tab1 S1; cbn [ohandle ocells] in *; [|exists itb1; auto].
    pose proof (sim_memo_opt handle cells _ _ (stree_same_eq eqA) (tree_same_eq eqA) st n t1 _ _ Ho
      (fun k' E W => handle_inj st t1 k' E Ho W) (IH t1 Ho So) itb1 tab1 S1) as X. unfold i_bind.
    destruct (memo_opt (tree_same eqA) n t1 (m_fold_up_meta eqA f t1) tab1) as [[[x tab2] lg]|s|]; cbn [bind] in *;
      [|rewrite X; reflexivity..].
    destruct X as (itb2 & -> & S2). cbn [bind i_ret]. exists itb2. rewrite !app_nil_r. auto. }
  rewrite i_bind_eq. pose proof (G (fork_left nm) l Hl ltac:(simpl in Sz; lia) itb tab S) as X.
  cbv beta in X. destruct (match l with None => _ | Some _ => _ end) as [[[rl tab1] lg1]|s|]; cbn [bind]; [|rewrite X; reflexivity..].
  destruct X as (itb1 & -> & S1). cbn [bind]. rewrite i_bind_eq.
  pose proof (G (fork_right nm) r Hr ltac:(simpl in Sz; lia) itb1 tab1 S1) as X.
  cbv beta in X. destruct (match r with None => _ | Some _ => _ end) as [[[rr tab2] lg2]|s|]; cbn [bind]; [|rewrite X; reflexivity..].
  destruct X as (itb2 & -> & S2). cbn [bind]. unfold i_lift.
  destruct (f rl d lv nm rr); cbn [bind]; auto. exists itb2. split; [|exact S2].
  rewrite !app_nil_r. cbn [app]. rewrite cells_eq. cbn [map]. rewrite map_app. now destruct nm.
Qed.

(** Left to right. *)
Section LR.
Context {Nsp : here} {R : Type} (eqR : forall x y : R, {x = y} + {x <> y}) (f : R -> A -> level -> option name -> R).
Definition lr_enc (k : tree A * option name * R) : stree A * option name * R := (handle (fst (fst k)), snd (fst k), snd k).
Definition lr_cells (k : tree A * option name * R) : list (@seen A) := cells (fst (fst k)).
Lemma lr_same_iff (k k' : tree A * option name * R) : lr_same eqA eqR k k' = true <-> k = k'.
Proof.
  destruct k as [[t s] a], k' as [[t' s'] a']. unfold lr_same. simpl. rewrite !andb_true_iff, tree_same_eq.
  destruct (oname_eq_dec s s'), (eqR a a'); split; intros Q; try (decompose [and] Q; congruence).
  injection Q as -> _ _. auto.
Qed.
Lemma lr_sim st k : forall t s a, held eqA st (cells t) -> t_size t <= k ->
  sim lr_enc lr_cells st (i_fold_lr_meta eqA eqR k f (handle t) s a) (m_fold_lr_meta eqA eqR f t s a) (cells t).
Proof.
  induction k as [|k IH]; intros t s a H Sz; [destruct t; simpl in Sz; lia|].
  intros itb tab S. pose proof (handle_look _ _ H) as Lk.
  cbn [i_fold_lr_meta]. rewrite i_bind_eq. cbn [i_enter bind]. rewrite i_bind_eq.
  rewrite (i_force_look _ _ _ itb Lk). cbn [bind]. rewrite handle_name, handle_level.
  destruct t as [lv nm d l r]. cbn [t_level t_name t_peek t_left t_right m_fold_lr_meta] in *.
  rewrite cells_eq in H. apply held_app in H. destruct H as [_ H]. apply held_app in H. destruct H as [Hl Hr].
  assert (G : forall n o s a, held eqA st (ocells o) -> match o with None => 0 | Some t => t_size t end <= k ->
    sim lr_enc lr_cells st
      match ohandle o with
      | None => i_ret a
      | Some t1 => i_memo_opt eqA (slr_same eqA eqR) n (t1, s, a) (i_fold_lr_meta eqA eqR k f t1 s a)
      end
      (fun tab => match o with
      | None => Ok (a, tab, [])
      | Some t1 => memo_opt (lr_same eqA eqR) n (t1, s, a) (m_fold_lr_meta eqA eqR f t1 s a) tab
      end) (ocells o)).
  { intros n [t1|] s1 a1 Ho So; cbn [ohandle ocells] in *; [|intros itb1 tab1 S1; exists itb1; auto].
    apply (sim_memo_opt lr_enc lr_cells _ _ (slr_same_eq eqA eqR) lr_same_iff st n (t1, s1, a1)); auto.
    - intros [[t2 s2] a2] E W. unfold lr_enc, lr_cells in *. cbn [fst snd] in *. injection E as E -> ->.
      now rewrite (handle_inj st t1 t2 E Ho W).
    - now apply IH. }
  set (hd := match handle (Node lv nm d l r) with TPut _ _ _ _ => [] | TCell _ a => [(a, (d, ohandle l, ohandle r))] end).
  assert (Ec : cells (Node lv nm d l r) = hd ++ ocells l ++ ocells r) by (rewrite cells_eq; unfold hd; now destruct nm).
  rewrite Ec. clearbody hd. clear Ec Lk.
  assert (Br : sim lr_enc lr_cells st
      (inc a1 <- match ohandle l with
                | None => i_ret a
                | Some t1 => i_memo_opt eqA (slr_same eqA eqR) (fork_left nm) (t1, s, a) (i_fold_lr_meta eqA eqR k f t1 s a)
                end;
      match ohandle r with
      | None => i_ret (f a1 d lv nm)
      | Some t2 => i_memo_opt eqA (slr_same eqA eqR) (fork_right nm) (t2, nm, f a1 d lv nm)
            (i_fold_lr_meta eqA eqR k f t2 nm (f a1 d lv nm))
      end)
      (m_bind (fun tab => match l with None => Ok (a, tab, []) | Some t1 => memo_opt (lr_same eqA eqR) (fork_left nm) (t1, s, a) (m_fold_lr_meta eqA eqR f t1 s a) tab end)
       (fun a1 tab => match r with None => Ok (f a1 d lv nm, tab, []) | Some t2 => memo_opt (lr_same eqA eqR) (fork_right nm) (t2, nm, f a1 d lv nm) (m_fold_lr_meta eqA eqR f t2 nm (f a1 d lv nm)) tab end))
      (ocells l ++ ocells r)).
  { apply sim_bind; [apply G; auto; simpl in Sz; lia|]. intros a1. apply G; auto; simpl in Sz; lia. }
  assert (Fin : forall (i : im T A (stree A * option name * R) R R) m, sim lr_enc lr_cells st i m (ocells l ++ ocells r) ->
    match (do ' (x, tab', lg) <- m tab; Ok (x, tab', Node lv nm d l r :: lg)) with
    | Ok (x, tab', lg) => exists itb',
       (do ' (y, s2, tab2, lg2) <- (do ' (y, s2, tab2, lg2) <- i st itb; Ok (y, hd ++ s2, tab2, [] ++ lg2)); Ok (y, [] ++ s2, tab2, [handle (Node lv nm d l r)] ++ lg2)) =
       Ok (x, hd ++ ocells l ++ ocells r, itb', map handle lg) /\ trel lr_enc lr_cells itb' tab'
    | Panic s => (do ' (y, s2, tab2, lg2) <- (do ' (y, s2, tab2, lg2) <- i st itb; Ok (y, hd ++ s2, tab2, [] ++ lg2)); Ok (y, [] ++ s2, tab2, [handle (Node lv nm d l r)] ++ lg2)) = Panic s
    | Fuel => (do ' (y, s2, tab2, lg2) <- (do ' (y, s2, tab2, lg2) <- i st itb; Ok (y, hd ++ s2, tab2, [] ++ lg2)); Ok (y, [] ++ s2, tab2, [handle (Node lv nm d l r)] ++ lg2)) = Fuel
    end).
  { intros i m X. specialize (X itb tab S). destruct (m tab) as [[[x tab'] lg]|e|]; cbn [bind]; [|rewrite X; reflexivity..].
    destruct X as (itb' & -> & S'). exists itb'. split; [reflexivity|exact S']. }
  destruct l as [l|], r as [r|]; cbn [ohandle ocells] in *.
  1-3: specialize (Fin _ _ Br); unfold m_bind in Fin; cbv beta in Fin; cbn [bind] in Fin |- *;
    repeat match goal with |- context [memo_opt ?a ?b ?c ?d ?e] => destruct (memo_opt a b c d e) as [[[? ?] ?]|?|]; cbn [bind] in * end; try exact Fin.
  exists itb. split; [reflexivity|exact S].
Qed.
End LR.

Lemma trel_none {Nsp : here} {K K' R : Type} (enc : K' -> K) (kcells : K' -> list (@seen A)) :
  trel (R := R) enc kcells no_entries no_memos.
Proof. intros n. exact I. Qed.

(** Histories of runs. *)
Lemma runs_sim {Nsp : here} {K K' R X Z Y : Type} (enc : K' -> K) (kcells : K' -> list (@seen A))
    (irun : X -> im T A K R Y) (mrun : Z -> mtab K' R -> res (Y * mtab K' R * list (tree A))) xs zs :
  Forall2 (fun c z => exists tr, sim enc kcells (fst c) (irun (snd c)) (mrun z) tr) xs zs ->
  forall itb tab, trel enc kcells itb tab ->
  match runs mrun zs tab with
  | Ok (ys, tab', lgs) => exists itb', inc_runs irun xs itb = Ok (ys, itb', map (map handle) lgs) /\ trel enc kcells itb' tab'
  | Panic s => inc_runs irun xs itb = Panic s
  | Fuel => inc_runs irun xs itb = Fuel
  end.
Proof.
  induction 1 as [|[st x] z xs zs [tr H] _ IH]; intros itb tab S; cbn [runs inc_runs fst snd] in *; [exists itb; auto|].
  specialize (H itb tab S). destruct (mrun z tab) as [[[y tab1] lg]|s|]; cbn [bind]; [|rewrite H; reflexivity..].
  destruct H as (itb1 & -> & S1). cbn [bind]. specialize (IH itb1 tab1 S1).
  destruct (runs mrun zs tab1) as [[[ys tab2] lgs]|s|]; cbn [bind]; [|rewrite IH; reflexivity..].
  destruct IH as (itb2 & -> & S2). cbn [bind]. exists itb2. auto.
Qed.
End Tree.

Lemma runs_app {X K R Y L} (run : X -> mtab K R -> res (Y * mtab K R * list L)) xs zs : forall tab,
  runs run (xs ++ zs) tab = do ' (ys, tab1, lgs) <- runs run xs tab; do ' (ys2, tab2, lgs2) <- runs run zs tab1;
                            Ok (ys ++ ys2, tab2, lgs ++ lgs2).
Proof.
  induction xs as [|x xs IH]; intros tab; cbn [runs app].
  - cbn [bind]. destruct (runs run zs tab) as [[[ys tab2] lgs]|s|]; reflexivity.
  - destruct (run x tab) as [[[y tab1] lg]|s|]; cbn [bind]; auto. rewrite IH.
    destruct (runs run xs tab1) as [[[ys tab2] lgs]|s|]; cbn [bind]; auto.
    destruct (runs run zs tab2) as [[[ys2 tab3] lgs2]|s|]; reflexivity.
Qed.

(** From a bound for the last run over immutable trees to one for the last run over stores. *)
Lemma last_run {T A} {Nsp : here} (q : list name) {K K' R X Z Y : Type} (enc : K' -> K) (kcells : K' -> list (@seen A))
    (irun : X -> im T A K R Y) (mrun : Z -> mtab K' R -> res (Y * mtab K' R * list (tree A))) (b : nat) xs zs z :
  Forall2 (fun c z => exists tr, sim q enc kcells (fst c) (irun (snd c)) (mrun z) tr) xs (zs ++ [z]) ->
  (forall rs tab lgs x tab' lg, runs mrun zs no_memos = Ok (rs, tab, lgs) -> mrun z tab = Ok (x, tab', lg) -> length lg <= b) ->
  forall rs itb lgs, inc_runs irun xs no_entries = Ok (rs, itb, lgs) -> length (last lgs []) <= b.
Proof.
  intros F B rs itb lgs H. pose proof (runs_sim _ _ _ _ _ _ _ F _ _ (trel_none enc kcells)) as S.
  rewrite runs_app in S. destruct (runs mrun zs no_memos) as [[[ys tab1] lgs1]|s|] eqn:E1; cbn [bind] in S; [|congruence..].
  cbn [runs] in S. destruct (mrun z tab1) as [[[y tab2] lg]|s|] eqn:E2; cbn [bind] in S; [|congruence..].
  destruct S as (itb' & E & _). rewrite E in H. inv H. rewrite map_app. cbn [map]. rewrite last_last, map_length.
  eapply B; eauto.
Qed.

Section Raz.
Context {E M : Type} {RM : RazMeta E M} (eqD : forall x y : tree_data E M, {x = y} + {x <> y}) {Fns : here} {R : Type}.
Notation rstore := (store (level * list E) (tree_data E M)).
Lemma rt_up_sim q (f : option R -> tree_data E M -> level -> option name -> option R -> res R) t :
  ev (fun k => forall (st : rstore) h, tree_reads (within q st) h t -> exists tr,
    sim q (handle q) (cells q) st (i_on_tree (i_fold_up_meta eqD k f) h) (on_tree (m_fold_up_meta eqD f) t) tr).
Proof.
  apply (ev_imp _ _ (ev_le (match rt_tree t with None => 0 | Some tr => t_size tr end))). intros k Hk st h [_ H].
  unfold i_on_tree, on_tree. destruct (srt_tree h) as [s|], (rt_tree t) as [tr|]; try contradiction.
  - apply reads_rep, (homed eqD) in H. destruct H as [-> H]. exists (cells q tr ++ []). intros itb tab S.
    pose proof (up_sim eqD q f st k tr H Hk itb tab S) as X. unfold i_bind.
    destruct (m_fold_up_meta eqD f tr tab) as [[[x tab2] lg]|s|]; cbn [bind]; [|rewrite X; reflexivity..].
    destruct X as (itb' & -> & S'). cbn [bind i_ret]. exists itb'. rewrite !app_nil_r. auto.
  - exists []. intros itb tab S. exists itb. auto.
Qed.
Lemma rt_lr_sim q (eqR : forall x y : R, {x = y} + {x <> y}) (f : R -> tree_data E M -> level -> option name -> R) init t :
  ev (fun k => forall (st : rstore) h, tree_reads (within q st) h t -> exists tr,
    sim q (lr_enc q) (lr_cells q) st (i_rt_lr eqD eqR k f init h) (m_rt_lr eqD eqR f init t) tr).
Proof.
  apply (ev_imp _ _ (ev_le (match rt_tree t with None => 0 | Some tr => t_size tr end))). intros k Hk st h [_ H].
  unfold i_rt_lr, m_rt_lr. destruct (srt_tree h) as [s|], (rt_tree t) as [tr|]; try contradiction.
  - apply reads_rep, (homed eqD) in H. destruct H as [-> H]. exists (cells q tr). now apply lr_sim.
  - exists []. intros itb tab S. exists itb. auto.
Qed.

Section Any.
Context {K K' Y : Type} (q : list name) (enc : K' -> K) (kcells : K' -> list (@seen (tree_data E M)))
  (irun : nat -> sraz_tree E M -> im (level * list E) (tree_data E M) K R Y)
  (mrun : raz_tree E M -> mtab K' R -> res (Y * mtab K' R * list (tree (tree_data E M)))).
Hypothesis run_sim : forall t, ev (fun k => forall (st : rstore) h, tree_reads (within q st) h t -> exists tr,
    sim q enc kcells st (irun k h) (mrun t) tr).
Lemma rt_last_run (b : nat) (xs : list (rstore * sraz_tree E M)) ts t :
  Forall2 (fun c t => tree_reads (within q (fst c)) (snd c) t) xs (ts ++ [t]) ->
  (forall rs tab lgs x tab' lg, runs mrun ts no_memos = Ok (rs, tab, lgs) -> mrun t tab = Ok (x, tab', lg) -> length lg <= b) ->
  ev (fun k => forall rs itb lgs, inc_runs (irun k) xs no_entries = Ok (rs, itb, lgs) -> length (last lgs []) <= b).
Proof.
  intros F B. apply (ev_imp (fun k => Forall2 (fun c z => exists tr, sim q enc kcells (fst c) (irun k (snd c)) (mrun z) tr) xs (ts ++ [t]))).
  - apply ev_Forall2. eapply Forall2_weaken; [|exact F]. intros c t' Rd. apply (ev_imp _ _ (run_sim t')). auto.
  - intros k H. eapply last_run; eauto.
Qed.
End Any.
End Raz.

Lemma within_below {T A} q (st : store T A) : below (within q st) st.
Proof. intros a c. unfold within. now destruct (list_eq_dec name_eq_dec (fst a) q). Qed.

Section Home.
Context {E M : Type} {RM : RazMeta E M}.
Lemma home q (cs : list (cmd E Index)) ts os p' :
  p_run (map (fun t : raz_tree E M => VTree t) ts) cs = Ok (os, p') -> names_ok_run (map (fun t : raz_tree E M => VTree t) ts) cs ->
  NoDup (flat_map node_names ts) ->
  exists k0, forall k st hs, k0 <= k -> Forall2 (tree_reads (within q st)) hs ts ->
  exists sp' st', s_run (Nsp := q) k (map VTree hs) cs st = Ok ((os, sp'), st') /\ Forall2 (shows (within q st')) sp' p'.
Proof.
  intros H Nk Nd. destruct (live_run_sim (Nsp := q) cs _ _ _ H Nk) as [k0 K]. exists k0. intros k st hs Hk F.
  destruct (K k Hk (within q st) (map VTree hs) (reads_prep q _ hs ts F) (node_names_uniq _ Nd)) as (sp' & st1 & R1 & P & _).
  pose proof (run_isolated _ _ _ _ _ _ _ R1) as Is1.
  destruct (tame_mono _ (tame_run (Nsp := q) k cs (map VTree hs)) _ _ _ _ (within_below q st) R1) as (st2 & R2 & B).
  exists sp', st2. split; [exact R2|].
  eapply Forall2_weaken; [|exact P]. intros s v V. apply (vrep_shows q) in V. revert V. apply shows_below.
  intros a c Ha. unfold within. destruct (list_eq_dec name_eq_dec (fst a) q) as [e|N]; [now apply B|].
  exfalso. rewrite Is1 in Ha by exact N. unfold within in Ha.
  destruct (list_eq_dec name_eq_dec (fst a) q); [contradiction|discriminate].
Qed.
End Home.
