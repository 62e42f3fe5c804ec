(** * Proofs about namespaces: a computation writes only in its own one, and does not
      notice cells it has not looked at. *)

From Verif Require Import Base SpecRaz StackModel AStackModel LevelTreeModel TreeCursorModel RazMetaModel RazModel
  RazScripts TreeSpec TreeProofs StoreModel StoreSpec StoreScripts StoreProofs StoreRaz StoreHistory.

(** Every cell of [st1] is in [st2]. *)
Definition below {T A} (st1 st2 : store T A) : Prop := forall a c, st1 a = Some c -> st2 a = Some c.

Section Tame.
Context {T A : Type} {Nsp : here}.
Notation store := (store T A).

Record tame {X} (m : sm T A X) : Prop := {
  tame_stays : forall st x st', m st = Ok (x, st') -> forall a, fst a <> path -> st' a = st a;
  tame_mono : forall st1 st2 x st1', below st1 st2 -> m st1 = Ok (x, st1') ->
    exists st2', m st2 = Ok (x, st2') /\ below st1' st2' }.

Lemma tame_ret {X} (x : X) : tame (s_ret x).
Proof.
  constructor; unfold s_ret.
  - intros st y st' H. now injection H as _ <-.
  - intros st1 st2 y st1' B H. injection H as <- <-. eauto.
Qed.
Lemma tame_bind {X Y} (m : sm T A X) (f : X -> sm T A Y) : tame m -> (forall x, tame (f x)) -> tame (s_bind m f).
Proof.
  intros [S1 M1] F. constructor; unfold s_bind.
  - intros st y st' H a Ha. destruct (m st) as [[x st1]| |] eqn:Em; try discriminate.
    rewrite (tame_stays _ (F x) _ _ _ H a Ha). eauto.
  - intros st1 st2 y st1' B H. destruct (m st1) as [[x st3]| |] eqn:Em; try discriminate.
    destruct (M1 _ _ _ _ B Em) as (st4 & -> & B'). exact (tame_mono _ (F x) _ _ _ _ B' H).
Qed.
Lemma tame_lift {X} (m : res X) : tame (s_lift m).
Proof.
  constructor; unfold s_lift.
  - intros st x st' H. destruct m; try discriminate. now injection H as _ <-.
  - intros st1 st2 x st1' B H. destruct m; try discriminate. injection H as <- <-. eauto.
Qed.
Lemma tame_fuel {X} : tame (fun _ : store => @Fuel (X * store)).
Proof. constructor; discriminate. Qed.
Lemma tame_cell n c : tame (s_cell n c).
Proof.
  constructor; unfold s_cell.
  - intros st x st' H a Ha. injection H as _ <-. unfold write. destruct (loc_eq_dec a (path, n)) as [->|]; [|reflexivity].
    contradiction Ha. reflexivity.
  - intros st1 st2 x st1' B H. injection H as <- <-. eexists. split; [reflexivity|].
    intros a d. unfold write. destruct (loc_eq_dec a (path, n)); auto.
Qed.
Lemma tame_force_head h : tame (s_force_head h : sm T A _).
Proof.
  constructor; unfold s_force_head.
  - intros st x st' H. destruct (head_look st h); [|discriminate]. now injection H as _ <-.
  - intros st1 st2 x st1' B H. destruct (head_look st1 h) as [y|] eqn:E; [|discriminate].
    injection H as <- <-. assert (head_look st2 h = Some y) as ->.
    { destruct h; simpl in *; auto. destruct (st1 c) as [d|] eqn:Ec; [|discriminate]. now rewrite (B _ _ Ec). }
    eexists. split; [reflexivity|exact B].
Qed.
Lemma tame_force_tree t : tame (s_force_tree t : sm T A _).
Proof.
  constructor; unfold s_force_tree.
  - intros st x st' H. destruct (tree_look st t); [|discriminate]. now injection H as _ <-.
  - intros st1 st2 x st1' B H. destruct (tree_look st1 t) as [y|] eqn:E; [|discriminate].
    injection H as <- <-. assert (tree_look st2 t = Some y) as ->.
    { destruct t; simpl in *; auto. destruct (st1 c) as [d|] eqn:Ec; [|discriminate]. now rewrite (B _ _ Ec). }
    eexists. split; [reflexivity|exact B].
Qed.
Lemma tame_loop {S R} k (step : S -> sm T A (S + R)) : (forall s, tame (step s)) -> forall s, tame (s_loop k step s).
Proof.
  intros H. induction k as [|k IH]; intros s; cbn [s_loop]; [apply tame_fuel|].
  apply tame_bind; [apply H|]. intros [s'|r]; [apply IH|apply tame_ret].
Qed.
End Tame.

#[local] Hint Resolve tame_ret tame_lift tame_cell tame_force_head tame_force_tree tame_fuel : tame.
Ltac tm :=
  intros;
  repeat first
  [ progress eauto 2 with tame
  | apply tame_bind; [|intros]
  | apply tame_loop; intros
  | match goal with |- tame (match ?x with _ => _ end) => destruct x end
  | match goal with |- tame (let x := ?v in _) => cbv zeta end ].
Ltac tms d := unfold d; tm.

Section Functions.
Context {T A : Type} {TU : TreeUpdate A} {Nsp : here}.
Notation tame := (@tame T A Nsp _).

Lemma tame_push_onto s nm e : tame (s_push_onto s nm e).
Proof. tms @s_push_onto. Qed.
#[local] Hint Resolve tame_push_onto : tame.
Lemma tame_ss_push s nm e : tame (ss_push s nm e).
Proof. tms @ss_push. Qed.
Lemma tame_ss_peek s : tame (ss_peek s).
Proof. tms @ss_peek. Qed.
Lemma tame_ss_pull s : tame (ss_pull s).
Proof. tms @ss_pull. Qed.
Lemma tame_iter_next s : tame (ss_iter_next s).
Proof. tms @ss_iter_next. Qed.
#[local] Hint Resolve tame_ss_push tame_ss_peek tame_ss_pull tame_iter_next : tame.
Lemma tame_take k : forall s, tame (ss_take k s).
Proof. induction k; cbn [ss_take]; tm. Qed.
Lemma tame_tree_new lv nm d l r : tame (s_tree_new lv nm d l r).
Proof. tms @s_tree_new. Qed.
Lemma tame_left t : tame (st_left t).
Proof. tms @st_left. Qed.
Lemma tame_right t : tame (st_right t).
Proof. tms @st_right. Qed.
Lemma tame_peek t : tame (st_peek t).
Proof. tms @st_peek. Qed.
#[local] Hint Resolve tame_take tame_tree_new tame_left tame_right tame_peek : tame.
Lemma tame_peek_op o : tame (s_peek_op o).
Proof. tms @s_peek_op. Qed.
Lemma tame_read k : forall t, tame (st_read k t).
Proof. induction k; cbn [st_read]; tm. Qed.
#[local] Hint Resolve tame_peek_op tame_read : tame.
Lemma tame_sc_left c : tame (sc_left_tree c).
Proof. tms @sc_left_tree. Qed.
Lemma tame_sc_right c : tame (sc_right_tree c).
Proof. tms @sc_right_tree. Qed.
Lemma tame_sc_peek c : tame (sc_peek c).
Proof. tms @sc_peek. Qed.
#[local] Hint Resolve tame_sc_left tame_sc_right tame_sc_peek : tame.
Lemma tame_sc_split c : tame (sc_split c).
Proof. tms @sc_split. Qed.
Lemma tame_down_left f c : tame (sc_down_left_force f c).
Proof. tms @sc_down_left_force. Qed.
Lemma tame_down_right f c : tame (sc_down_right_force f c).
Proof. tms @sc_down_right_force. Qed.
Lemma tame_up c : tame (sc_up c).
Proof. tms @sc_up. Qed.
Lemma tame_up_discard c : tame (sc_up_discard c).
Proof. tms @sc_up_discard. Qed.
#[local] Hint Resolve tame_sc_split tame_down_left tame_down_right tame_up tame_up_discard : tame.
Lemma tame_up_or_panic c : tame (sc_up_or_panic c).
Proof. tms @sc_up_or_panic. Qed.
#[local] Hint Resolve tame_up_or_panic : tame.
Lemma tame_dla k c : tame (sc_down_left_all k c).
Proof. tms @sc_down_left_all. Qed.
Lemma tame_dra k c : tame (sc_down_right_all k c).
Proof. tms @sc_down_right_all. Qed.
Lemma tame_up_all k c : tame (sc_up_all k c).
Proof. tms @sc_up_all. Qed.
Lemma tame_cr k c : tame (sc_clear_right k c).
Proof. tms @sc_clear_right. Qed.
Lemma tame_cl k c : tame (sc_clear_left k c).
Proof. tms @sc_clear_left. Qed.
Lemma tame_jlu k l c : tame (sc_join_left_up k l c).
Proof. tms @sc_join_left_up. Qed.
Lemma tame_jld k l c : tame (sc_join_left_down k l c).
Proof. tms @sc_join_left_down. Qed.
Lemma tame_jru k l c : tame (sc_join_right_up k l c).
Proof. tms @sc_join_right_up. Qed.
Lemma tame_jrd k l c : tame (sc_join_right_down k l c).
Proof. tms @sc_join_right_down. Qed.
#[local] Hint Resolve tame_dla tame_dra tame_up_all tame_cr tame_cl tame_jlu tame_jld tame_jru tame_jrd : tame.
Lemma tame_join k a l n d b : tame (sc_join k a l n d b).
Proof. tms @sc_join. Qed.
End Functions.
#[local] Hint Resolve tame_push_onto tame_ss_push tame_ss_peek tame_ss_pull tame_iter_next tame_take tame_tree_new tame_left
  tame_right tame_peek tame_peek_op tame_read tame_sc_left tame_sc_right tame_sc_peek tame_sc_split tame_down_left
  tame_down_right tame_up tame_up_discard tame_up_or_panic tame_dla tame_dra tame_up_all tame_join : tame.

Section Stacks.
Context {E M A : Type} {Nsp : here}.
Notation tame := (@tame _ A Nsp _).

Lemma tame_retrieve (a : sastack E M) : tame (sa_retrieve a).
Proof. tms @sa_retrieve. Qed.
#[local] Hint Resolve tame_retrieve : tame.
Lemma tame_sa_pop (a : sastack E M) : tame (sa_pop a).
Proof. tms @sa_pop. Qed.
Lemma tame_sa_pop_meta (a : sastack E M) : tame (sa_pop_meta a).
Proof. tms @sa_pop_meta. Qed.
Lemma tame_next_archive (a : sastack E M) : tame (sa_next_archive a).
Proof. tms @sa_next_archive. Qed.
Lemma tame_sa_peek (a : sastack E M) : tame (sa_peek a).
Proof. tms @sa_peek. Qed.
Lemma tame_sa_archive (a : sastack E M) nm m : tame (sa_archive a nm m).
Proof. tms @sa_archive. Qed.
End Stacks.
#[local] Hint Resolve tame_retrieve tame_sa_pop tame_sa_pop_meta tame_next_archive tame_sa_peek tame_sa_archive : tame.

Section Raz.
Context {E M : Type} {RM : RazMeta E M} {Nsp : here}.
Notation tame := (@tame _ _ Nsp _).

Lemma tame_treetop (o : option (stree (tree_data E M))) : tame (s_treetop_meta o).
Proof. tms @s_treetop_meta. Qed.
#[local] Hint Resolve tame_treetop : tame.
Lemma tame_mk (o : option (stree (tree_data E M))) : tame (s_mk_raz_tree o).
Proof. tms @s_mk_raz_tree. Qed.
#[local] Hint Resolve tame_mk : tame.
Lemma tame_empty : tame (s_rt_empty (E := E) (M := M)).
Proof. tms @s_rt_empty. Qed.
Lemma tame_leaf v n : tame (s_leaf (E := E) (M := M) v n).
Proof. tms @s_leaf. Qed.
Lemma tame_bin l lv n r : tame (s_bin (E := E) (M := M) l lv n r).
Proof. tms @s_bin. Qed.
#[local] Hint Resolve tame_empty tame_leaf tame_bin : tame.
Lemma tame_rt_join a l n b : tame (s_rt_join (E := E) (M := M) a l n b).
Proof. tms @s_rt_join. Qed.
Lemma tame_from_vec v : tame (s_rt_from_vec (E := E) (M := M) v).
Proof. tms @s_rt_from_vec. Qed.
#[local] Hint Resolve tame_rt_join tame_from_vec : tame.
Lemma tame_focus_step k s : tame (s_focus_step (E := E) (M := M) k s).
Proof. tms @s_focus_step. Qed.
#[local] Hint Resolve tame_focus_step : tame.
Lemma tame_focus k t x : tame (s_focus (E := E) (M := M) k t x).
Proof. tms @s_focus. Qed.
Lemma tame_focus_left k t : tame (s_focus_left (E := E) (M := M) k t).
Proof. tms @s_focus_left. Qed.
Lemma tame_peek_left k z : tame (s_peek_left (E := E) (M := M) k z).
Proof. tms @s_peek_left. Qed.
Lemma tame_peek_right k z : tame (s_peek_right (E := E) (M := M) k z).
Proof. tms @s_peek_right. Qed.
Lemma tame_archive_left z l n : tame (s_archive_left (E := E) (M := M) z l n).
Proof. tms @s_archive_left. Qed.
Lemma tame_archive_right z l n : tame (s_archive_right (E := E) (M := M) z l n).
Proof. tms @s_archive_right. Qed.
Lemma tame_pop_left k z : tame (s_pop_left (E := E) (M := M) k z).
Proof. tms @s_pop_left. Qed.
Lemma tame_pop_right k z : tame (s_pop_right (E := E) (M := M) k z).
Proof. tms @s_pop_right. Qed.
Lemma tame_side f : tame (s_unfocus_side (E := E) (M := M) f).
Proof. tms @s_unfocus_side. Qed.
#[local] Hint Resolve tame_focus tame_focus_left tame_peek_left tame_peek_right tame_archive_left tame_archive_right
  tame_pop_left tame_pop_right tame_side : tame.
Lemma tame_ull k s l n c : tame (s_unfocus_left_loop (E := E) (M := M) k s l n c).
Proof. tms @s_unfocus_left_loop. Qed.
Lemma tame_url k s l n c : tame (s_unfocus_right_loop (E := E) (M := M) k s l n c).
Proof. tms @s_unfocus_right_loop. Qed.
Lemma tame_uvec a b c d e f g h : tame (s_unfocus_vec (E := E) (M := M) a b c d e f g h).
Proof. tms @s_unfocus_vec. Qed.
#[local] Hint Resolve tame_ull tame_url tame_uvec : tame.
Lemma tame_unfocus k z : tame (s_unfocus (E := E) (M := M) k z).
Proof. tms @s_unfocus. Qed.
#[local] Hint Resolve tame_unfocus : tame.
Lemma tame_zstep k z o : tame (s_zstep (E := E) (M := M) k z o).
Proof. tms @s_zstep. Qed.
#[local] Hint Resolve tame_zstep : tame.
Lemma tame_step k p c : tame (s_step (E := E) (M := M) k p c).
Proof. tms @s_step. Qed.
#[local] Hint Resolve tame_step : tame.
Lemma tame_run k cs : forall p, tame (s_run (E := E) (M := M) k p cs).
Proof. induction cs; cbn [s_run]; tm. Qed.
End Raz.

Section StackRuns.
Context {T A : Type} {Nsp : here}.
#[local] Hint Resolve tame_ss_push tame_ss_peek tame_ss_pull tame_take : tame.
Lemma tame_k_step p c : tame (T := T) (A := A) (k_step p c).
Proof. tms @k_step. Qed.
#[local] Hint Resolve tame_k_step : tame.
Lemma tame_k_run cs : forall p, tame (T := T) (A := A) (k_run p cs).
Proof. induction cs; cbn [k_run]; tm. Qed.
End StackRuns.

(** ** Reading *)
Section Read.
Context {T A : Type}.
Implicit Types (st : store T A) (q : list name).

Lemma reads_below st1 st2 h (t : tree A) : below st1 st2 -> reads st1 h t -> reads st2 h t.
Proof.
  intros B [k H]. destruct (tame_mono _ (tame_read (Nsp := []) k h) _ _ _ _ B H) as (st3 & E & _).
  pose proof (proj1 (read_rep k _ _ _ _ E)) as ->. exists k. exact E.
Qed.
Lemma without_below q st : below (without q st) st.
Proof. intros a c. unfold without. destruct (list_eq_dec _ _ _); [discriminate|auto]. Qed.
Lemma without_same q st st' : (forall a, fst a <> q -> st' a = st a) -> below (without q st) (without q st').
Proof. intros H a c. unfold without. destruct (list_eq_dec _ _ _) as [|N]; [discriminate|]. now rewrite H. Qed.
End Read.

Section Versions.
Context {E M : Type} {RM : RazMeta E M}.
Notation store := (store (level * list E) (tree_data E M)).
Implicit Types (st : store) (q r : list name).

Lemma tree_reads_below st1 st2 (h : sraz_tree E M) t : below st1 st2 -> tree_reads st1 h t -> tree_reads st2 h t.
Proof.
  intros B [Hm H]. split; [exact Hm|]. destruct (srt_tree h), (rt_tree t); auto. exact (reads_below _ _ _ _ B H).
Qed.
Lemma shows_below st1 st2 s (v : val (raz_tree E M) (raz E M)) : below st1 st2 -> shows st1 s v -> shows st2 s v.
Proof. intros B. destruct s, v; simpl; auto. now apply tree_reads_below. Qed.
Lemma Forall2_weaken {X Y} (P Q : X -> Y -> Prop) l l' : (forall x y, P x y -> Q x y) -> Forall2 P l l' -> Forall2 Q l l'.
Proof. intros H. induction 1; constructor; auto. Qed.

Lemma vrep_shows (Nsp : here) st s v : vrep st s v -> shows st s v.
Proof.
  destruct s as [a| |], v as [b| |]; simpl; auto. intros [Hm H]. split; [exact Hm|].
  destruct (srt_tree a), (rt_tree b); simpl in *; auto. exists (t_size t). apply rep_read; [exact H|lia].
Qed.
Lemma reads_prep (Nsp : here) st hs ts : Forall2 (tree_reads st) hs ts -> prep st (map VTree hs) (map (fun t : raz_tree E M => VTree t) ts).
Proof.
  induction 1 as [|h t hs ts [Hm H] _ IH]; constructor; auto. split; [exact Hm|].
  destruct (srt_tree h), (rt_tree t); simpl; auto. destruct H as [k H]. exact (proj2 (read_rep k _ _ _ _ H)).
Qed.
Lemma names_cnt (t : tree (tree_data E M)) n :
  cnt n (flat_map (fun x => names_of (snd (fst x))) (inorder t)) = cnt n (tnames t).
Proof.
  induction t as [lv nm d l r IHl IHr] using tree_induction. rewrite tnames_eq.
  cbn [t_name t_left t_right inorder]. rewrite !flat_map_app. cbn [flat_map fst snd]. rewrite !cnt_app.
  assert (X : forall o : option (tree (tree_data E M)), match o with None => True | Some u =>
      cnt n (flat_map (fun x => names_of (snd (fst x))) (inorder u)) = cnt n (tnames u) end ->
    cnt n (flat_map (fun x => names_of (snd (fst x))) (match o with None => [] | Some u => inorder u end)) = cnt n (otnames o)).
  { intros [u|] H; [exact H|reflexivity]. }
  rewrite (X l), (X r) by (destruct l, r; simpl in *; auto).
  assert (cnt n (names_of nm) = cnt n (oroot nm)) as -> by (destruct nm; reflexivity). lia.
Qed.
Lemma node_names_uniq (ts : list (raz_tree E M)) : NoDup (flat_map node_names ts) -> uniq (pnames (map (fun t : raz_tree E M => VTree t) ts)).
Proof.
  rewrite <- uniq_NoDup. intros H n. specialize (H n).
  assert (cnt n (pnames (map (fun t : raz_tree E M => VTree t) ts)) = cnt n (flat_map node_names ts)) as ->; [|exact H].
  clear H. induction ts as [|t ts IH]; [reflexivity|]. cbn [map pnames flat_map]. fold (pnames (map (fun t : raz_tree E M => VTree t) ts)).
  rewrite !cnt_app, IH. f_equal. unfold vnames, rtnames, node_names. destruct (rt_tree t) as [u|]; [|reflexivity].
  symmetry. apply names_cnt.
Qed.

Lemma run_isolated q k sp (cs : list (cmd E Index)) st x st' :
  s_run (Nsp := q) k sp cs st = Ok (x, st') -> forall a, fst a <> q -> st' a = st a.
Proof. intros H. exact (tame_stays _ (tame_run (Nsp := q) k cs sp) _ _ _ H). Qed.

Lemma versions q (cs : list (cmd E Index)) ts os p' :
  p_run (map (fun t : raz_tree E M => VTree t) ts) cs = Ok (os, p') -> names_ok_run (map (fun t : raz_tree E M => VTree t) ts) cs ->
  NoDup (flat_map node_names ts) ->
  exists k0, forall k st hs, k0 <= k -> Forall2 (tree_reads st) hs ts ->
  exists sp' st', s_run (Nsp := q) k (map VTree hs) cs st = Ok ((os, sp'), st') /\ Forall2 (shows st') sp' p' /\
    (Forall2 (tree_reads (without q st)) hs ts -> Forall2 (tree_reads (without q st')) hs ts) /\
    (forall r, r <> q -> Forall2 (tree_reads (without r st)) hs ts -> Forall2 (shows (without r st')) sp' p').
Proof.
  intros H Nk Nd. destruct (live_run_sim (Nsp := q) cs _ _ _ H Nk) as [k0 K]. exists k0. intros k st hs Hk F.
  assert (Z : forall st hs, Forall2 (tree_reads st) hs ts ->
    exists sp' st', s_run (Nsp := q) k (map VTree hs) cs st = Ok ((os, sp'), st') /\ prep st' sp' p').
  { intros st1 hs1 F1.
    destruct (K k Hk st1 (map VTree hs1) (reads_prep q st1 hs1 ts F1) (node_names_uniq _ Nd)) as (sp' & st' & R & P & _).
    exists sp', st'. auto. }
  destruct (Z st hs F) as (sp' & st' & R & P). exists sp', st'. split; [exact R|].
  pose proof (run_isolated _ _ _ _ _ _ _ R) as Is.
  split; [|split].
  - eapply Forall2_weaken; [|exact P]. intros; now apply (vrep_shows q).
  - apply Forall2_weaken. intros h t. apply tree_reads_below. now apply without_same.
  - intros r Nr Fr. destruct (Z _ _ Fr) as (sp1 & st1 & R1 & P1).
    pose proof (run_isolated _ _ _ _ _ _ _ R1) as Is1.
    destruct (tame_mono _ (tame_run (Nsp := q) k cs (map VTree hs)) _ _ _ _ (without_below r st) R1) as (st2 & R2 & B).
    rewrite R in R2. injection R2 as <- <-.
    eapply Forall2_weaken; [|exact P1]. intros s v V. apply (vrep_shows q) in V. revert V. apply shows_below.
    intros a c Ha. unfold without at 1. destruct (list_eq_dec name_eq_dec (fst a) r) as [e|N]; [|now apply B].
    exfalso. rewrite Is1 in Ha by congruence. unfold without in Ha.
    destruct (list_eq_dec name_eq_dec (fst a) r); [discriminate|congruence].
Qed.

Lemma two_versions q r (cs ds : list (cmd E Index)) ts os ps us vs :
  q <> r -> NoDup (flat_map node_names ts) ->
  p_run (map (fun t : raz_tree E M => VTree t) ts) cs = Ok (os, ps) -> names_ok_run (map (fun t : raz_tree E M => VTree t) ts) cs ->
  p_run (map (fun t : raz_tree E M => VTree t) ts) ds = Ok (us, vs) -> names_ok_run (map (fun t : raz_tree E M => VTree t) ts) ds ->
  exists k0, forall k st hs, k0 <= k -> Forall2 (tree_reads (without q (without r st))) hs ts ->
  exists sp st1 sq st2,
    s_run (Nsp := q) k (map VTree hs) cs st = Ok ((os, sp), st1) /\
    s_run (Nsp := r) k (map VTree hs) ds st1 = Ok ((us, sq), st2) /\
    Forall2 (shows st2) sp ps /\ Forall2 (shows st2) sq vs /\
    Forall2 (tree_reads (without q (without r st2))) hs ts.
Proof.
  intros Nqr Nd H1 N1 H2 N2.
  destruct (versions q cs ts os ps H1 N1 Nd) as [k1 K1].
  destruct (versions r ds ts us vs H2 N2 Nd) as [k2 K2].
  exists (k1 + k2). intros k st hs Hk F.
  assert (W : forall st st1, below st st1 -> Forall2 (tree_reads st) hs ts -> Forall2 (tree_reads st1) hs ts).
  { intros st0 st1 B. apply Forall2_weaken. intros h t. now apply tree_reads_below. }
  assert (Wr : below (without q (without r st)) (without r st)) by apply without_below.
  destruct (K1 k st hs ltac:(lia)) as (sp & st1 & R1 & _ & _ & V1).
  { revert F. apply W. intros a c A. apply (without_below r), Wr, A. }
  pose proof (run_isolated _ _ _ _ _ _ _ R1) as I1.
  assert (F1 : Forall2 (tree_reads (without q (without r st1))) hs ts).
  { revert F. apply W. intros a c. unfold without. destruct (list_eq_dec name_eq_dec (fst a) q) as [e|n0]; [discriminate|].
    destruct (list_eq_dec name_eq_dec (fst a) r); [discriminate|]. now rewrite I1. }
  destruct (K2 k st1 hs ltac:(lia)) as (sq & st2 & R2 & S2 & _ & _).
  { revert F1. apply W. intros a c A. apply (without_below r), (without_below q), A. }
  pose proof (run_isolated _ _ _ _ _ _ _ R2) as I2.
  exists sp, st1, sq, st2. split; [exact R1|]. split; [exact R2|]. split; [|split; [exact S2|]].
  - specialize (V1 r (not_eq_sym Nqr) (W _ _ Wr F)). revert V1. apply Forall2_weaken. intros s v. apply shows_below.
    intros a c A. apply (without_same r st1 st2 I2) in A. now apply (without_below r).
  - revert F1. apply W. intros a c. unfold without. destruct (list_eq_dec name_eq_dec (fst a) q) as [e|n0]; [discriminate|].
    destruct (list_eq_dec name_eq_dec (fst a) r); [discriminate|]. now rewrite I2.
Qed.
End Versions.
