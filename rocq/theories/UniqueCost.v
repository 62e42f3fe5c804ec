(** * The work of memoised unique_elms after a change. *)

From Verif Require Import Base BaseFacts Spec SpecRaz LevelTreeModel TreeSpec TreeProofs TreeCursorModel RazMetaModel RazModel RazView RazProofs RazScripts RazReach
  MemoModel MemoSpec MemoProofs MemoCost MemoRaz MemoHistory StoreModel StoreSpec StoreScripts StoreProofs StoreRaz StoreHistory IncModel IncSpec IncProofs IncCost
  SkiplistModel MapScripts SkiplistProofs SkipStoreModel SkipStoreSpec SkipStoreProofs UniqueStoreModel UniqueStoreProofs UniqueIncModel UniqueIncSpec UniqueIncProofs.

Section Cost.
Context {E M : Type} {RM : RazMeta E M} (eqD : forall x y : tree_data E M, {x = y} + {x <> y})
  (eqE : forall x y : E, {x = y} + {x <> y}) {Nsp : here}.
Context (my_hash : E -> N) (debug : bool) (tq : list name).
Notation keqb := (eqb_of eqE).
Notation rstore := (store (level * list E) (tree_data E M)).
Notation rtree := (tree (tree_data E M)).
Notation cells := (cells E unit).
Notation hm := (@hm (level * list E) (tree_data E M) E unit (stree (tree_data E M) * option name * sskiplist) sskiplist).
Notation hseen := (@hseen (tree_data E M) E unit).
Notation htab := (@htab (tree_data E M) E unit (stree (tree_data E M) * option name * sskiplist) sskiplist).
Notation here_ := StoreModel.path.
Notation put_ := (putting keqb my_hash debug here_).
Notation c_node := (c_node eqE my_hash debug (M := M)).
Notation c_each := (c_each eqE my_hash debug).

(** ** Cells that agree where defined *)
Definition sub (c cs : cells) : Prop := forall a p, c a = Some p -> cs a = Some p.
Lemma sub_refl c : sub c c.
Proof. intros a p H. exact H. Qed.
Lemma sub_trans c c1 c2 : sub c c1 -> sub c1 c2 -> sub c c2.
Proof. intros H H' a p Q. auto. Qed.
Lemma sub_put c cs a p : sub c cs -> sub (put_cell c a p) (put_cell cs a p).
Proof. intros H b p'. unfold put_cell. destruct (loc_eq_dec b a); auto. Qed.
Lemma sub_fresh (c : cells) a p : c a = None -> sub c (put_cell c a p).
Proof. intros H b p' Q. unfold put_cell. destruct (loc_eq_dec b a); congruence. Qed.
Lemma sub_alike c cs cs' : sub c cs -> alike cs cs' -> sub c cs'.
Proof. intros H A a p Q. rewrite <- A. auto. Qed.

Lemma rec_sub c cs fuel : sub c cs -> forall len key cur cp r, s_build_path_rec debug c fuel len key cur cp = Ok r ->
  s_build_path_rec debug cs fuel len key cur cp = Ok r /\
  forall (st : rstore) (tab : htab), exists tr, h_build_path_rec debug fuel len key cur cp st cs tab = Ok (r, cs, tr, tab, []) /\
    Forall (fun x => exists b p, x = HPath b p /\ c b = Some p) tr.
Proof.
  intros Su. induction fuel as [|fuel IH]; intros len key cur cp r H; cbn [s_build_path_rec] in H; [discriminate|].
  destruct (c cur) as [p|] eqn:Ec; cbn [unwrap bind] in H; [|discriminate].
  cbn [s_build_path_rec h_build_path_rec]. unfold h_bind at 1, h_get_cell. rewrite (Su _ _ Ec). cbn [unwrap bind].
  destruct (s_build_path_step debug cur p len key (length cp)) as [o| |] eqn:Es; cbn [bind] in H |- *; try discriminate.
  cbv zeta in H |- *.
  destruct (so_kvs o) as [kvs|] eqn:Ek; [|destruct (so_next o) as [nx|] eqn:En].
  - split; [exact H|]. intros st tab. unfold h_bind, h_lift, h_ret. cbn [bind]. cbv zeta. rewrite Ek.
    destruct (assert _ _); cbn [bind] in H |- *; try discriminate. inv H.
    eexists. split; [reflexivity|]. constructor; [eauto|]. constructor.
  - destruct (IH _ _ _ _ _ H) as [H1 H2]. split; [exact H1|]. intros st tab. destruct (H2 st tab) as (tr & H3 & F).
    unfold h_bind at 1, h_lift. cbn [bind]. cbv zeta. rewrite Ek, En, H3. cbn [bind].
    eexists. split; [reflexivity|]. constructor; [eauto|exact F].
  - split; [exact H|]. intros st tab. unfold h_bind, h_lift, h_ret. cbn [bind]. cbv zeta. rewrite Ek, En.
    destruct (assert _ _); cbn [bind] in H |- *; try discriminate. inv H.
    eexists. split; [reflexivity|]. constructor; [eauto|]. constructor.
Qed.
Lemma find_sub c cs s k r : sub c cs -> ssk_find my_hash debug c s k = Ok r ->
  ssk_find my_hash debug cs s k = Ok r /\
  forall (st : rstore) (tab : htab), exists tr, h_find my_hash debug s k st cs tab = Ok (r, cs, tr, tab, []) /\
    Forall (fun x => exists b p, x = HPath b p /\ c b = Some p) tr.
Proof.
  intros Su H. unfold ssk_find in *. unfold h_find, h_bind at 1, h_lift. destruct (make_mask (s_path_len s)) as [mask| |]; cbn [bind] in *; try discriminate.
  cbv zeta in *. destruct (s_head s) as [a0|].
  - destruct (s_build_path_rec debug c (s_path_len s + 2) (s_path_len s) (N.land (my_hash k) mask) a0 []) as [[kvs cp]| |] eqn:Er; cbn [bind] in H; try discriminate.
    inv H. destruct (rec_sub c cs _ Su _ _ _ _ _ Er) as [H1 H2]. rewrite H1. split; [reflexivity|]. intros st tab. destruct (H2 st tab) as (tr & H3 & F).
    unfold h_bind at 1. rewrite H3. cbn [bind h_ret]. eexists. split; [reflexivity|]. now rewrite app_nil_r.
  - split; [exact H|]. inv H. intros st tab. exists []. split; [reflexivity|constructor].
Qed.

Lemma put_sub c cs s e s' c' : sub c cs -> put_ s e tt c = Ok (s', c') ->
  exists p, c' = put_cell c (next_cell here_ s) p /\ put_ s e tt cs = Ok (s', put_cell cs (next_cell here_ s) p) /\
    s_name s' = s_name s /\ s_cntr s' = (s_cntr s + 1)%N /\
    forall (st : rstore) (tab : htab), exists tr, h_put keqb my_hash debug here_ s e tt st cs tab = Ok (s', put_cell cs (next_cell here_ s) p, tr, tab, []) /\
      Forall (fun x => exists b p', x = HPath b p' /\ (c b = Some p' \/ b = next_cell here_ s /\ p' = p)) tr.
Proof.
  intros Su H. unfold putting, ssk_put, ssk_ext in *.
  destruct (ssk_find my_hash debug c s e) as [[[kh o] cp]| |] eqn:Ef; cbn [bind] in H; try discriminate.
  destruct (find_sub c cs s e _ Su Ef) as [F1 F2]. rewrite F1. cbn [bind].
  destruct (match o with Some _ => _ | None => _ end) as [[nk ov] cp'] eqn:Eo. cbn [bind] in H |- *. inv H.
  eexists. split; [reflexivity|]. split; [reflexivity|]. split; [reflexivity|]. split; [reflexivity|].
  intros st tab. destruct (F2 st tab) as (tr & F3 & Fa). unfold h_put, h_ext, h_bind at 1 2. rewrite F3. cbn [bind].
  rewrite Eo. unfold h_bind at 1. cbn [h_put_cell bind h_ret]. eexists. split; [reflexivity|].
  rewrite !app_nil_r. apply Forall_app. split; [|constructor; [eauto 6|constructor]].
  eapply Forall_impl; [|exact Fa]. intros x (b & p & -> & Q). eauto.
Qed.

(** ** Histories: the leaves met, each with the name archived after it *)
Notation hist := (list (list E * option name)).
Definition hev (d : tree_data E M) (n : option name) : hist := match d with Leaf v => [(v, n)] | _ => [] end.
Definition note (a : hist) (d : tree_data E M) (lv : level) (n : option name) : hist := a ++ hev d n.
Fixpoint leaves (t : rtree) (s : option name) : hist :=
  match t with
  | Node lv nm d l r =>
      match l, r with
      | None, None => hev d s
      | _, _ => match l with None => [] | Some t1 => leaves t1 s end ++ hev d nm ++ match r with None => [] | Some t2 => leaves t2 nm end
      end
  end.
Fixpoint perf (x : hist) (s : sskiplist) : @cm E unit sskiplist :=
  match x with
  | [] => c_ret s
  | (v, n) :: x => c_bind (c_node s (Leaf v) 0%N n) (perf x)
  end.
Lemma perf_app x : forall y s c, perf (x ++ y) s c = c_bind (perf x s) (perf y) c.
Proof.
  induction x as [|[v n] x IH]; intros y s c; [reflexivity|]. cbn [perf app]. unfold c_bind at 1 2 3.
  destruct (c_node s (Leaf v) 0%N n c) as [[s1 c1]| |]; cbn [bind]; [|reflexivity..]. rewrite IH. reflexivity.
Qed.
Lemma perf_hev s d lv n c : perf (hev d n) s c = c_node s d lv n c.
Proof.
  destruct d; try reflexivity. cbn [hev perf]. unfold c_bind at 1. change (c_node s (Leaf v) lv n c) with (c_node s (Leaf v) 0%N n c).
  destruct (c_node s (Leaf v) 0%N n c) as [[s1 c1]| |]; reflexivity.
Qed.
Lemma fold_perf t : inner_named t -> forall s a c, c_fold c_node t s a c = perf (leaves t s) a c.
Proof.
  induction t as [lv nm d l r Hl Hr] using tree_induction. intros I s a c.
  destruct (inner_named_case _ I) as [(lv' & d' & Q)|(lv' & n & d' & tl & tr & Q & Il & Ir)]; inv Q; cbn [c_fold leaves].
  - symmetry. apply perf_hev.
  - simpl in Hl, Hr. rewrite perf_app. unfold c_bind at 1 3. rewrite (Hl Il).
    destruct (perf (leaves tl s) a c) as [[a1 c1]| |]; cbn [bind]; [|reflexivity..].
    rewrite perf_app. unfold c_bind at 1 2. rewrite <- (perf_hev a1 d' lv' (Some n)).
    destruct (perf (hev d' (Some n)) a1 c1) as [[a2 c2]| |]; cbn [bind]; [|reflexivity..]. apply (Hr Ir).
Qed.
Lemma note_fold t : inner_named t -> forall s a, t_fold_lr_meta note t s a = a ++ leaves t s.
Proof.
  induction t as [lv nm d l r Hl Hr] using tree_induction. intros I s a.
  destruct (inner_named_case _ I) as [(lv' & d' & Q)|(lv' & n & d' & tl & tr & Q & Il & Ir)]; inv Q; cbn [t_fold_lr_meta leaves]; [reflexivity|].
  simpl in Hl, Hr. cbv zeta. rewrite (Hr Ir), (Hl Il). unfold note. now rewrite !app_assoc.
Qed.

Definition hn (x : hist) : list name := flat_map (fun y => match snd y with Some n => [n] | None => [] end) x.
Lemma hn_app x y : hn (x ++ y) = hn x ++ hn y.
Proof. apply flat_map_app. Qed.

(** The cells of a history: of its names, the last of them with numbers below the next. *)
Definition tidy (x : hist) (s : sskiplist) (c : cells) : Prop :=
  exists used, s_name s :: used = rev (NUnit :: hn x) /\ forall a, c a <> None ->
    exists m d, a = (here_, NPair m (NNum d)) /\ (In m used \/ m = s_name s /\ (d < s_cntr s)%N).
Definition step (x : hist) (c cs : cells) (y : hist) (s' : sskiplist) (c' cs' : cells) : Prop :=
  sub c c' /\ sub c' cs' /\ tidy (x ++ y) s' c' /\ forall cst, sub c' cst -> sub cst cs -> sub cst cs'.
Lemma step_trans x c cs y s1 c1 cs1 z s2 c2 cs2 :
  step x c cs y s1 c1 cs1 -> step (x ++ y) c1 cs1 z s2 c2 cs2 -> step x c cs (y ++ z) s2 c2 cs2.
Proof.
  intros (A1 & A2 & A3 & A4) (B1 & B2 & B3 & B4). split; [eapply sub_trans; eauto|]. split; [exact B2|].
  split; [now rewrite app_assoc|]. intros cst H H'. apply B4; [exact H|]. apply A4; [eapply sub_trans; eauto|exact H'].
Qed.
Lemma step_new x c cs y s' c' cs' : step x c cs y s' c' cs' -> sub c' cs'.
Proof. intros (_ & H & _). exact H. Qed.
Lemma step_grow x c cs y s' c' cs' : step x c cs y s' c' cs' -> sub c c'.
Proof. intros (H & _). exact H. Qed.
Lemma step_keep x c cs y s' c' cs' cst : step x c cs y s' c' cs' -> sub c' cst -> sub cst cs -> sub cst cs'.
Proof. intros (_ & _ & _ & H). apply H. Qed.
Lemma step_nil x c cs s : tidy x s c -> sub c cs -> step x c cs [] s c cs.
Proof. intros T Su. split; [apply sub_refl|]. split; [exact Su|]. split; [now rewrite app_nil_r|auto]. Qed.

Definition on_cells (c : cells) (x : hseen) : Prop := exists b p, x = HPath b p /\ c b = Some p.
Lemma on_cells_sub c c' x : sub c c' -> on_cells c x -> on_cells c' x.
Proof. intros Su (b & p & -> & H). exists b, p. auto. Qed.

Lemma put_step x s c cs e s' c' : NoDup (NUnit :: hn x) -> tidy x s c -> sub c cs -> put_ s e tt c = Ok (s', c') ->
  exists cs', put_ s e tt cs = Ok (s', cs') /\ step x c cs [] s' c' cs' /\
    forall (st : rstore) (tab : htab), exists tr, h_put keqb my_hash debug here_ s e tt st cs tab = Ok (s', cs', tr, tab, []) /\ Forall (on_cells c') tr.
Proof.
  intros Nd (used & Eu & D) Su H. destruct (put_sub c cs s e s' c' Su H) as (p & -> & P1 & N1 & N2 & P2).
  assert (Nu : ~ In (s_name s) used).
  { apply NoDup_rev in Nd. rewrite <- Eu in Nd. now inversion Nd. }
  assert (Fr : c (next_cell here_ s) = None).
  { destruct (c (next_cell here_ s)) eqn:Ec; [|reflexivity]. destruct (D (next_cell here_ s)) as (m & d & Ea & Q); [congruence|].
    unfold next_cell in Ea. inversion Ea; subst. destruct Q as [Q|[_ Q]]; [contradiction|lia]. }
  assert (Here : put_cell c (next_cell here_ s) p (next_cell here_ s) = Some p).
  { unfold put_cell. destruct (loc_eq_dec _ _); congruence. }
  eexists. split; [exact P1|]. split.
  - split; [now apply sub_fresh|]. split; [now apply sub_put|]. split.
    + rewrite app_nil_r. exists used. split; [now rewrite N1|]. intros a Ha. rewrite N1, N2. unfold put_cell in Ha.
      destruct (loc_eq_dec a (next_cell here_ s)) as [->|Ne].
      * exists (s_name s), (s_cntr s). split; [reflexivity|]. right. split; [reflexivity|lia].
      * destruct (D a Ha) as (m & d & -> & Q). exists m, d. split; [reflexivity|]. destruct Q as [Q|[Q1 Q2]]; [now left|right]. split; [exact Q1|lia].
    + intros cst H1 H2 b p' Hb. unfold put_cell. destruct (loc_eq_dec b (next_cell here_ s)) as [->|Ne]; [|auto].
      rewrite (H1 _ _ Here) in Hb. exact Hb.
  - intros st tab. destruct (P2 st tab) as (tr & P3 & F). exists tr. split; [exact P3|]. eapply Forall_impl; [|exact F].
    intros y (b & p' & -> & [Q|[-> ->]]); exists b + exists (next_cell here_ s); eexists; (split; [reflexivity|]).
    + now apply sub_fresh.
    + exact Here.
Qed.
Lemma each_step x v : NoDup (NUnit :: hn x) -> forall s c cs s' c', tidy x s c -> sub c cs -> c_each v s c = Ok (s', c') ->
  exists cs', c_each v s cs = Ok (s', cs') /\ step x c cs [] s' c' cs' /\
    forall (st : rstore) (tab : htab), exists tr, h_each (fun a e => h_put keqb my_hash debug here_ a e tt) v s st cs tab = Ok (s', cs', tr, tab, []) /\ Forall (on_cells c') tr.
Proof.
  intros Nd. induction v as [|e v IH]; intros s c cs s' c' T Su H; cbn [UniqueIncProofs.c_each h_each] in *.
  - inv H. exists cs. split; [reflexivity|]. split; [now apply step_nil|]. intros st tab. exists []. split; [reflexivity|constructor].
  - unfold c_bind in *. apply bind_Ok in H. destruct H as ([s1 c1] & H1 & H2).
    destruct (put_step x s c cs e s1 c1 Nd T Su H1) as (cs1 & P1 & St1 & G1).
    pose proof St1 as (A1 & A2 & A3 & _). rewrite app_nil_r in A3.
    destruct (IH s1 c1 cs1 s' c' A3 A2 H2) as (cs2 & P2 & St2 & G2). exists cs2. rewrite P1. cbn [bind]. split; [exact P2|]. split.
    + change (@nil (list E * option name)) with (@nil (list E * option name) ++ []). eapply step_trans; [exact St1|]. now rewrite app_nil_r.
    + intros st tab. destruct (G1 st tab) as (tr1 & Q1 & F1). destruct (G2 st tab) as (tr2 & Q2 & F2). unfold h_bind. rewrite Q1. cbn [bind].
      rewrite Q2. cbn [bind]. eexists. split; [reflexivity|]. apply Forall_app. split; [|exact F2].
      eapply Forall_impl; [|exact F1]. intros y. apply on_cells_sub. now destruct St2.
Qed.
Lemma node_step x s c cs d lv n s' c' : NoDup (NUnit :: hn (x ++ hev d n)) -> tidy x s c -> sub c cs -> c_node s d lv n c = Ok (s', c') ->
  exists cs', c_node s d lv n cs = Ok (s', cs') /\ step x c cs (hev d n) s' c' cs' /\
    forall (st : rstore) (tab : htab), exists tr, h_unique_node eqE my_hash debug s d lv n st cs tab = Ok (s', cs', tr, tab, []) /\ Forall (on_cells c') tr.
Proof.
  intros Nd T Su H. destruct d as [| |v]; cbn [UniqueIncProofs.c_node h_unique_node hev] in *.
  1-2: inv H; exists cs; split; [reflexivity|]; split; [now apply step_nil|]; intros st tab; exists []; split; [reflexivity|apply Forall_nil].
  unfold c_bind in *. apply bind_Ok in H. destruct H as ([s1 c1] & H1 & H2). inv H2.
  assert (Nx : NoDup (NUnit :: hn x)).
  { rewrite hn_app in Nd. change (NUnit :: hn x ++ hn [(v, n)]) with ((NUnit :: hn x) ++ hn [(v, n)]) in Nd. now apply NoDup_app_inv in Nd. }
  destruct (each_step x v Nx s c cs s1 c' T Su H1) as (cs1 & P1 & St1 & G1). rewrite P1. cbn [bind c_ret]. exists cs1. split; [reflexivity|].
  split.
  - destruct St1 as (A1 & A2 & A3 & A4). split; [exact A1|]. split; [exact A2|]. split; [|exact A4].
    rewrite app_nil_r in A3. destruct A3 as (used & Eu & D). destruct n as [nm|].
    + exists (s_name s1 :: used). split.
      * rewrite Eu, hn_app. cbn [hn flat_map snd app ssk_archive s_name rev]. rewrite rev_app_distr. reflexivity.
      * intros a Ha. destruct (D a Ha) as (m & d & -> & Q). exists m, d. split; [reflexivity|]. left. destruct Q as [Q|[-> _]]; [now right|now left].
    + exists used. split; [|exact D]. rewrite hn_app. cbn [hn flat_map snd app]. now rewrite app_nil_r.
  - intros st tab. destruct (G1 st tab) as (tr & Q & F). unfold h_bind. rewrite Q. cbn [bind h_ret].
    eexists. split; [reflexivity|]. now rewrite app_nil_r.
Qed.
Lemma nodup_pre (x y : hist) : NoDup (NUnit :: hn (x ++ y)) -> NoDup (NUnit :: hn x).
Proof.
  intros Nd. rewrite hn_app in Nd. change (NUnit :: hn x ++ hn y) with ((NUnit :: hn x) ++ hn y) in Nd. now apply NoDup_app_inv in Nd.
Qed.
Lemma perf_step y : forall x s c cs s' c', NoDup (NUnit :: hn (x ++ y)) -> tidy x s c -> sub c cs -> perf y s c = Ok (s', c') ->
  exists cs', perf y s cs = Ok (s', cs') /\ step x c cs y s' c' cs'.
Proof.
  induction y as [|[v n] y IH]; intros x s c cs s' c' Nd T Su H; cbn [perf] in *.
  - inv H. exists cs. split; [reflexivity|]. now apply step_nil.
  - unfold c_bind in *. apply bind_Ok in H. destruct H as ([s1 c1] & H1 & H2).
    change ((v, n) :: y) with (hev (Leaf v : tree_data E M) n ++ y) in Nd |- *. rewrite app_assoc in Nd.
    destruct (node_step x s c cs (Leaf v) 0%N n s1 c1) as (cs1 & P1 & St1 & _); auto.
    { now apply (nodup_pre _ y). }
    rewrite P1. cbn [bind]. pose proof St1 as (_ & A2 & A3 & _). destruct (IH (x ++ hev (Leaf v) n) s1 c1 cs1 s' c' Nd A3 A2 H2) as (cs2 & P2 & St2).
    exists cs2. split; [exact P2|]. eapply step_trans; eauto.
Qed.

(** ** The two engines on a node *)
Definition eqH : forall x y : hist, {x = y} + {x <> y}.
Proof. apply list_eq_dec. decide equality; [|apply list_eq_dec, eqE]. decide equality. apply name_eq_dec. Defined.
Notation hf k := (h_fold_lr_meta eqD eqE eq_unit eq_sskiplist k (h_unique_node eqE my_hash debug)).
Notation mf := (m_fold_lr_meta eqD eqH note).
Notation hcall k n u s a := (h_memo eqD eqE eq_unit (slr_same eqD eq_sskiplist) n (handle tq u, s, a) (hf k (handle tq u) s a)).
Notation mcall n u s a := (memo (lr_same eqD eqH) n (u, s, a) (mf u s a)).
Notation fk b m := (if b : bool then NForkL m else NForkR m).
Notation mtb := (mtab (rtree * option name * hist) hist).
Notation tcells := (IncCost.cells tq).

Lemma hf_leaf k lv d s a (st : rstore) cs tab a' cs' tr :
  h_unique_node eqE my_hash debug a d lv s st cs tab = Ok (a', cs', tr, tab, []) ->
  hf (S k) (handle tq (Node lv None d None None)) s a st cs tab = Ok (a', cs', tr, tab, [handle tq (Node lv None d None None)]).
Proof. intros H. cbn [h_fold_lr_meta handle]. unfold h_bind, h_enter, h_force. cbn [bind tree_look unwrap st_level]. rewrite H. reflexivity. Qed.
Lemma hf_node k lv n d l r s a (st : rstore) cs tab a1 cs1 tr1 tab1 lg1 a2 cs2 tr2 a3 cs3 tr3 tab3 lg3 :
  held eqD st (tcells (Node lv (Some n) d (Some l) (Some r))) ->
  hcall k (NForkL n) l s a st cs tab = Ok (a1, cs1, tr1, tab1, lg1) ->
  h_unique_node eqE my_hash debug a1 d lv (Some n) st cs1 tab1 = Ok (a2, cs2, tr2, tab1, []) ->
  hcall k (NForkR n) r (Some n) a2 st cs2 tab1 = Ok (a3, cs3, tr3, tab3, lg3) ->
  hf (S k) (handle tq (Node lv (Some n) d (Some l) (Some r))) s a st cs tab =
    Ok (a3, cs3, HNode ((tq, n), (d, Some (handle tq l), Some (handle tq r))) :: tr1 ++ tr2 ++ tr3, tab3,
        handle tq (Node lv (Some n) d (Some l) (Some r)) :: lg1 ++ lg3).
Proof.
  intros Hd H1 H2 H3. pose proof (handle_look eqD tq st _ Hd) as Lk. cbn [t_peek t_left t_right ohandle] in Lk.
  set (u := Node lv (Some n) d (Some l) (Some r)) in *. cbn [h_fold_lr_meta]. unfold h_bind at 1, h_enter. cbn [bind].
  unfold h_bind at 1, h_force. rewrite Lk. cbn [unwrap bind].
  assert (E1 : st_name (handle tq u) = Some n) by reflexivity. assert (E2 : st_level (handle tq u) = lv) by reflexivity. rewrite E1, E2.
  cbn [fork_left fork_right option_map h_memo_opt]. unfold h_bind at 1. rewrite H1. cbn [bind]. unfold h_bind at 1. rewrite H2. cbn [bind]. rewrite H3. cbn [bind].
  reflexivity.
Qed.
Lemma mf_node lv n d l r s x (T : mtb) x1 T1 lg1 x3 T3 lg3 :
  mcall (NForkL n) l s x T = Ok (x1, T1, lg1) -> mcall (NForkR n) r (Some n) (x1 ++ hev d (Some n)) T1 = Ok (x3, T3, lg3) ->
  mf (Node lv (Some n) d (Some l) (Some r)) s x T = Ok (x3, T3, Node lv (Some n) d (Some l) (Some r) :: lg1 ++ lg3).
Proof.
  intros H1 H2. cbn [m_fold_lr_meta memo_opt fork_left fork_right option_map]. rewrite H1. cbn [bind]. cbv zeta. change (note x1 d lv (Some n)) with (x1 ++ hev d (Some n)). rewrite H2. reflexivity.
Qed.

(** Entries that change. *)
Definition touch {V} (P : name -> Prop) (T T' : name -> option V) : Prop := forall n, T' n = T n \/ P n.
Lemma touch_refl {V} P (T : name -> option V) : touch P T T.
Proof. intros n. now left. Qed.
Lemma touch_trans {V} P (T T1 T2 : name -> option V) : touch P T T1 -> touch P T1 T2 -> touch P T T2.
Proof. intros H1 H2 n. destruct (H2 n) as [->|]; auto. Qed.
Lemma touch_imp {V} (P Q : name -> Prop) (T T' : name -> option V) : (forall n, P n -> Q n) -> touch P T T' -> touch Q T T'.
Proof. intros I H n. destruct (H n); auto. Qed.
Definition forks (N : list name) (n : name) : Prop := exists m b, In m N /\ n = fk b m.
Definition at_ (itb : htab) : name -> option _ := fun n => itb (here_, n).
Lemma at_set (itb : htab) n e n' : at_ (h_set itb (here_, n) e) n' = if name_eq_dec n' n then Some e else at_ itb n'.
Proof.
  unfold at_, h_set. destruct (loc_eq_dec (here_, n') (here_, n)) as [Q|Q], (name_eq_dec n' n); congruence.
Qed.
Lemma touch_set (itb itb' : htab) n e (P : name -> Prop) : touch P (at_ itb) (at_ itb') ->
  touch (fun n' => n' = n \/ P n') (at_ itb) (at_ (h_set itb' (here_, n) e)).
Proof. intros H n'. rewrite at_set. destruct (name_eq_dec n' n); [auto|]. destruct (H n'); auto. Qed.
Lemma touch_mset (T T' : mtb) n k x (P : name -> Prop) : touch P T T' -> touch (fun n' => n' = n \/ P n') T (memo_set T' n k x).
Proof. intros H n'. unfold memo_set. destruct (name_eq_dec n' n); [auto|]. destruct (H n'); auto. Qed.

(** ** Entries of one engine and of the other *)
Variable pathlen : nat.
Notation init := (ssk_archive (ssk_emp pathlen NUnit) NUnit).
Definition none : cells := fun _ => None.
Definition reach (x : hist) (a : sskiplist) (c : cells) : Prop := perf x init none = Ok (a, c).
Definition seen_in (u : rtree) (cst : cells) (h : hseen) : Prop :=
  match h with HNode y => In y (tcells u) | HPath b p => cst b = Some p end.
Definition entry_ok (xst : hist) (cst : cells) (oe : option (hentry (A := tree_data E M) (K := E) (V := unit) (stree (tree_data E M) * option name * sskiplist) sskiplist))
    (om : option (rtree * option name * hist * hist)) : Prop :=
  match om with
  | None => True
  | Some ((u1, s1, x1), r1) => r1 = x1 ++ leaves u1 s1 /\ exists e a1 c1, oe = Some e /\ reach x1 a1 c1 /\
      he_arg e = (handle tq u1, s1, a1) /\ (exists z, xst = x1 ++ z) /\ Forall (seen_in u1 cst) (he_seen e)
  end.
Lemma entry_mono xst cst z cst' oe om : entry_ok xst cst oe om -> sub cst cst' -> entry_ok (xst ++ z) cst' oe om.
Proof.
  destruct om as [[[[u1 s1] x1] r1]|]; [|auto]. cbn [entry_ok]. intros (E1 & e & a1 & c1 & E2 & R & E3 & (z' & ->) & F) Su.
  split; [exact E1|]. exists e, a1, c1. split; [exact E2|]. split; [exact R|]. split; [exact E3|].
  split; [exists (z' ++ z); now rewrite app_assoc|]. eapply Forall_impl; [|exact F]. intros [y|b p]; cbn; auto.
Qed.

Lemma tidy_start : tidy [] init none.
Proof. exists []. split; [reflexivity|]. intros a H. now destruct H. Qed.
Lemma reach_tidy x a c : NoDup (NUnit :: hn x) -> reach x a c -> tidy x a c.
Proof. intros Nd R. destruct (perf_step x [] init none none a c Nd tidy_start (sub_refl _) R) as (c2 & _ & _ & _ & T & _). exact T. Qed.
Lemma reach_app x y a c a' c' : reach x a c -> perf y a c = Ok (a', c') -> reach (x ++ y) a' c'.
Proof. unfold reach. intros R H. rewrite perf_app. unfold c_bind. rewrite R. exact H. Qed.
Lemma reach_sub x z a c a' c' : NoDup (NUnit :: hn (x ++ z)) -> reach x a c -> reach (x ++ z) a' c' -> sub c c'.
Proof.
  intros Nd R R'. pose proof (reach_tidy x a c (nodup_pre _ _ Nd) R) as T. unfold reach in *. rewrite perf_app in R'. unfold c_bind in R'. rewrite R in R'. cbn [bind] in R'.
  destruct (perf_step z x a c c a' c' Nd T (sub_refl _) R') as (c2 & _ & Su & _). exact Su.
Qed.
Lemma perf_split x y a c a' c' : perf (x ++ y) a c = Ok (a', c') -> exists a1 c1, perf x a c = Ok (a1, c1) /\ perf y a1 c1 = Ok (a', c').
Proof. rewrite perf_app. unfold c_bind. intros H. apply bind_Ok in H. destruct H as ([a1 c1] & H1 & H2). eauto. Qed.

(** ** The first run: no entry is found *)
Definition bare (itb : htab) (T : mtb) (N : list name) : Prop := forall m b, In m N -> at_ itb (fk b m) = None /\ T (fk b m) = None.
Lemma fk_inj b m b' m' : fk b m = fk b' m' -> b = b' /\ m = m'.
Proof. destruct b, b'; intros H; inversion H; auto. Qed.

Definition first_ok (u : rtree) : Prop := forall k s x a c a' c' (st : rstore) cs itb T,
  t_size u <= k -> held eqD st (tcells u) -> NoDup (NUnit :: hn (x ++ leaves u s)) -> reach x a c -> sub c cs ->
  perf (leaves u s) a c = Ok (a', c') -> bare itb T (names u) ->
  exists cs' tr itb' lg T' lgm, hf k (handle tq u) s a st cs itb = Ok (a', cs', tr, itb', lg) /\
    mf u s x T = Ok (x ++ leaves u s, T', lgm) /\ step x c cs (leaves u s) a' c' cs' /\
    Forall (seen_in u c') tr /\ touch (forks (names u)) (at_ itb) (at_ itb') /\ touch (forks (names u)) T T' /\
    forall m b, In m (names u) -> entry_ok (x ++ leaves u s) c' (at_ itb' (fk b m)) (T' (fk b m)).
Lemma first_call n u : first_ok u -> forall k s x a c a' c' (st : rstore) cs itb T,
  t_size u <= k -> held eqD st (tcells u) -> NoDup (NUnit :: hn (x ++ leaves u s)) -> reach x a c -> sub c cs ->
  perf (leaves u s) a c = Ok (a', c') -> bare itb T (names u) -> at_ itb n = None -> T n = None -> ~ forks (names u) n ->
  exists cs' tr itb' lg T' lgm, hcall k n u s a st cs itb = Ok (a', cs', tr, itb', lg) /\
    mcall n u s x T = Ok (x ++ leaves u s, T', lgm) /\ step x c cs (leaves u s) a' c' cs' /\
    Forall (seen_in u c') tr /\ touch (fun n' => n' = n \/ forks (names u) n') (at_ itb) (at_ itb') /\
    touch (fun n' => n' = n \/ forks (names u) n') T T' /\
    entry_ok (x ++ leaves u s) c' (at_ itb' n) (T' n) /\
    forall m b, In m (names u) -> entry_ok (x ++ leaves u s) c' (at_ itb' (fk b m)) (T' (fk b m)).
Proof.
  intros F k s x a c a' c' st cs itb T Sz Hd Nd R Su H B N1 N2 Nf.
  destruct (F k s x a c a' c' st cs itb T Sz Hd Nd R Su H B) as (cs' & tr & itb' & lg & T' & lgm & G1 & G2 & St & Tr & To1 & To2 & En).
  unfold h_memo, memo. unfold at_ in N1. rewrite N1, N2, G1, G2. cbn [bind].
  eexists _, _, _, _, _, _. split; [reflexivity|]. split; [reflexivity|]. split; [exact St|]. split; [exact Tr|].
  split; [now apply touch_set|]. split; [now apply touch_mset|]. split.
  - rewrite at_set. unfold memo_set. destruct (name_eq_dec n n) as [_|]; [|congruence]. cbn [entry_ok].
    split; [reflexivity|]. eexists _, a, c. split; [reflexivity|]. split; [exact R|]. split; [reflexivity|]. split; [eauto|exact Tr].
  - intros m b I. rewrite at_set. unfold memo_set. destruct (name_eq_dec (fk b m) n) as [<-|Ne]; [|now apply En].
    destruct Nf. exists m, b. auto.
Qed.

(** Names at a node. *)
Lemma names_at lv n d (l r : rtree) : names (Node lv (Some n) d (Some l) (Some r)) = n :: names l ++ names r.
Proof. reflexivity. Qed.
Lemma forks_fk N b m : forks N (fk b m) <-> In m N.
Proof. split; [intros (m' & b' & I & E1); apply fk_inj in E1; destruct E1; now subst|]. intros I. exists m, b. auto. Qed.
Lemma touch_at {V} P (T T' : name -> option V) n : touch P T T' -> ~ P n -> T' n = T n.
Proof. intros H Np. destruct (H n); [auto|contradiction]. Qed.

Section At.
Context (n : name) (l r : rtree).
Hypothesis Nd : NoDup (n :: names l ++ names r).
Lemma at_parts : ~ In n (names l) /\ ~ In n (names r) /\ NoDup (names l) /\ NoDup (names r) /\ forall m, In m (names l) -> ~ In m (names r).
Proof.
  inversion Nd as [|? ? Q1 Q2]; subst. rewrite in_app_iff in Q1. apply NoDup_app_inv in Q2. destruct Q2 as (A & B & C).
  split; [tauto|]. split; [tauto|]. split; [exact A|]. split; [exact B|]. intros m Im Jm. exact (C m Im Jm).
Qed.
Notation left_ := (fun n' => n' = NForkL n \/ forks (names l) n').
Notation right_ := (fun n' => n' = NForkR n \/ forks (names r) n').
Lemma keep_r {V} (T T' : name -> option V) b m : touch left_ T T' -> In m (names r) -> T' (fk b m) = T (fk b m).
Proof.
  intros H I. destruct at_parts as (A1 & A2 & _ & _ & A5). apply (touch_at _ _ _ _ H). intros [Q|Q].
  - change (NForkL n) with (fk true n) in Q. apply fk_inj in Q. destruct Q as [_ ->]. contradiction.
  - apply forks_fk in Q. exact (A5 m Q I).
Qed.
Lemma keep_fr {V} (T T' : name -> option V) : touch left_ T T' -> T' (NForkR n) = T (NForkR n).
Proof.
  intros H. destruct at_parts as (A1 & A2 & _). apply (touch_at _ _ _ _ H). intros [Q|Q]; [discriminate|].
  change (NForkR n) with (fk false n) in Q. apply forks_fk in Q. contradiction.
Qed.
Lemma keep_l {V} (T T' : name -> option V) b m : touch right_ T T' -> In m (names l) -> T' (fk b m) = T (fk b m).
Proof.
  intros H I. destruct at_parts as (A1 & A2 & _ & _ & A5). apply (touch_at _ _ _ _ H). intros [Q|Q].
  - change (NForkR n) with (fk false n) in Q. apply fk_inj in Q. destruct Q as [_ ->]. contradiction.
  - apply forks_fk in Q. exact (A5 m I Q).
Qed.
Lemma keep_fl {V} (T T' : name -> option V) : touch right_ T T' -> T' (NForkL n) = T (NForkL n).
Proof.
  intros H. destruct at_parts as (A1 & A2 & _). apply (touch_at _ _ _ _ H). intros [Q|Q]; [discriminate|].
  change (NForkL n) with (fk true n) in Q. apply forks_fk in Q. contradiction.
Qed.
Lemma touch_node {V} (T T1 T2 : name -> option V) : touch left_ T T1 -> touch right_ T1 T2 -> touch (forks (n :: names l ++ names r)) T T2.
Proof.
  intros H1 H2. apply (touch_trans _ _ T1); [eapply touch_imp; [|exact H1]|eapply touch_imp; [|exact H2]]; intros n' [->|(m & b & I & ->)].
  - exists n, true. split; [now left|reflexivity].
  - exists m, b. split; [right; apply in_or_app; now left|reflexivity].
  - exists n, false. split; [now left|reflexivity].
  - exists m, b. split; [right; apply in_or_app; now right|reflexivity].
Qed.
Lemma no_fork_l : ~ forks (names l) (NForkL n).
Proof. change (NForkL n) with (fk true n). rewrite forks_fk. destruct at_parts as (A1 & A2 & _). assumption. Qed.
Lemma no_fork_r : ~ forks (names r) (NForkR n).
Proof. change (NForkR n) with (fk false n). rewrite forks_fk. destruct at_parts as (A1 & A2 & _). assumption. Qed.
End At.

Lemma held_node (st : rstore) lv n d l r : held eqD st (tcells (Node lv (Some n) d (Some l) (Some r))) ->
  held eqD st (tcells l) /\ held eqD st (tcells r).
Proof. rewrite cells_eq. cbn [ocells]. rewrite !held_app. tauto. Qed.

Lemma first_run u : inner_named u -> NoDup (names u) -> first_ok u.
Proof.
  induction u as [lv nm d ol or Hl Hr] using tree_induction. intros I Ndn k s x a c a' c' st cs itb T Sz Hd Nd R Su H B.
  destruct k as [|k]; [simpl in Sz; lia|].
  destruct (inner_named_case _ I) as [(lv' & d' & Q)|(lv' & n & d' & l & r & Q & Il & Ir)]; inv Q.
  { cbn [leaves] in *. pose proof (perf_hev a d' lv' s c) as Hn. rewrite H in Hn. symmetry in Hn.
    destruct (node_step x a c cs d' lv' s a' c' Nd (reach_tidy _ _ _ (nodup_pre _ _ Nd) R) Su Hn) as (cs' & _ & St & G).
    destruct (G st itb) as (tr & G1 & F). eexists cs', tr, itb, _, T, _. split; [apply hf_leaf; exact G1|]. split; [reflexivity|]. split; [exact St|].
    split; [eapply Forall_impl; [|exact F]; intros y (b & p & -> & Q); exact Q|]. split; [apply touch_refl|]. split; [apply touch_refl|]. intros m b []. }
  simpl in Hl, Hr. rewrite names_at in *. cbn [leaves] in H, Nd |- *. simpl in Sz.
  destruct (at_parts n l r Ndn) as (A1 & A2 & Nl & Nr & A5). destruct (held_node _ _ _ _ _ _ Hd) as [Hdl Hdr].
  set (xl := leaves l s) in *. set (xr := leaves r (Some n)) in *. set (xm := hev d' (Some n)) in *.
  destruct (perf_split _ _ _ _ _ _ H) as (a1 & c1 & P1 & H'). destruct (perf_split _ _ _ _ _ _ H') as (a2 & c2 & P2 & P3). clear H'.
  assert (Nd3 : NoDup (NUnit :: hn (((x ++ xl) ++ xm) ++ xr))) by (rewrite <- !app_assoc; exact Nd).
  pose proof (nodup_pre _ _ Nd3) as Nd2. pose proof (nodup_pre _ _ Nd2) as Nd1.
  pose proof (reach_app _ _ _ _ _ _ R P1) as R1. pose proof (reach_app _ _ _ _ _ _ R1 P2) as R2.
  destruct (first_call (NForkL n) l (Hl Il Nl) k s x a c a1 c1 st cs itb T) as (cs1 & tr1 & itb1 & lg1 & T1 & lgm1 & G1 & M1 & St1 & F1 & Th1 & Tm1 & En1 & Es1); auto; try lia.
  { intros m b Im. apply B. right. apply in_or_app. now left. }
  { apply (B n true). now left. }
  { apply (B n true). now left. }
  { now apply (no_fork_l n l r). }
  pose proof P2 as P2'. unfold xm in P2'. rewrite (perf_hev a1 d' lv' (Some n)) in P2'.
  destruct (node_step (x ++ xl) a1 c1 cs1 d' lv' (Some n) a2 c2 Nd2) as (cs2 & _ & St2 & G2'); [apply (reach_tidy _ _ _ Nd1 R1)|exact (step_new _ _ _ _ _ _ _ St1)|exact P2'|].
  destruct (G2' st itb1) as (tr2 & G2 & F2). clear G2'.
  destruct (first_call (NForkR n) r (Hr Ir Nr) k (Some n) ((x ++ xl) ++ xm) a2 c2 a' c' st cs2 itb1 T1) as (cs3 & tr3 & itb3 & lg3 & T3 & lgm3 & G3 & M3 & St3 & F3 & Th3 & Tm3 & En3 & Es3); auto; try lia.
  { exact (step_new _ _ _ _ _ _ _ St2). }
  { intros m b Im. rewrite (keep_r n l r Ndn _ _ b m Th1 Im), (keep_r n l r Ndn _ _ b m Tm1 Im). apply B. right. apply in_or_app. now right. }
  { rewrite (keep_fr n l r Ndn _ _ Th1). apply (B n false). now left. }
  { rewrite (keep_fr n l r Ndn _ _ Tm1). apply (B n false). now left. }
  { now apply (no_fork_r n l r). }
  fold xr in M3, St3, En3, Es3.
  eexists cs3, _, itb3, _, T3, _. split; [eapply hf_node; eauto|].
  split; [rewrite (mf_node _ _ _ _ _ _ _ _ _ _ _ _ _ _ M1 M3); rewrite <- !app_assoc; reflexivity|].
  split; [eapply step_trans; [exact St1|]; eapply step_trans; [exact St2|exact St3]|].
  assert (Sb1 : sub c1 c') by (exact (sub_trans _ _ _ (step_grow _ _ _ _ _ _ _ St2) (step_grow _ _ _ _ _ _ _ St3))).
  assert (Sb2 : sub c2 c') by exact (step_grow _ _ _ _ _ _ _ St3).
  split.
  { constructor; [cbn; now left|]. rewrite !Forall_app. split; [|split].
    - eapply Forall_impl; [|exact F1]. intros [y|b p]; cbn [seen_in]; [|auto]. intros Iy. rewrite cells_eq. cbn [ocells]. apply in_or_app. right. apply in_or_app. now left.
    - eapply Forall_impl; [|exact F2]. intros y (b & p & -> & Q). cbn. auto.
    - eapply Forall_impl; [|exact F3]. intros [y|b p]; cbn [seen_in]; [|auto]. intros Iy. rewrite cells_eq. cbn [ocells]. apply in_or_app. right. apply in_or_app. now right. }
  split; [eapply touch_node; eauto|]. split; [eapply touch_node; eauto|].
  replace (x ++ xl ++ xm ++ xr) with (((x ++ xl) ++ xm) ++ xr) by now rewrite <- !app_assoc.
  assert (Mono : forall oe om, entry_ok (x ++ xl) c1 oe om -> entry_ok (((x ++ xl) ++ xm) ++ xr) c' oe om).
  { intros oe om Q. rewrite <- (app_assoc (x ++ xl)). now apply (entry_mono _ c1). }
  intros m b [<-|Im].
  - destruct b; [|exact En3]. rewrite (keep_fl n l r Ndn _ _ Th3), (keep_fl n l r Ndn _ _ Tm3). now apply Mono.
  - apply in_app_or in Im. destruct Im as [Im|Im]; [|now apply Es3].
    rewrite (keep_l n l r Ndn _ _ b m Th3 Im), (keep_l n l r Ndn _ _ b m Tm3 Im). now apply Mono, Es1.
Qed.

(** ** The second run: what one engine finds, the other finds too *)
Notation snd_ := (hsound (T := level * list E) eqD eqE eq_unit (hgood c_node)).
Lemma held_rep (st : rstore) (u : rtree) : held eqD st (tcells u) -> StoreProofs.rep st (handle tq u) u.
Proof.
  induction u as [lv nm d l r Hl Hr] using tree_induction. intros H. apply rep_eq.
  split; [apply handle_level|]. split; [apply handle_name|]. exists (ohandle tq l), (ohandle tq r).
  split; [exact (handle_look eqD tq st _ H)|]. rewrite cells_eq, !held_app in H. destruct H as (_ & H1 & H2).
  split; [destruct l|destruct r]; simpl in *; auto.
Qed.
Lemma step_alike x c cs y s' c' cs' cs2 : step x c cs y s' c' cs' -> alike cs' cs2 -> step x c cs y s' c' cs2.
Proof.
  intros (A1 & A2 & A3 & A4) Al. split; [exact A1|]. split; [exact (sub_alike _ _ _ A2 Al)|]. split; [exact A3|].
  intros cst H1 H2. apply (sub_alike _ cs'); [now apply A4|exact Al].
Qed.
Lemma call_gives n u k s x a c a' c' (st : rstore) cs itb y cs' tr itb' lg :
  inner_named u -> t_size u <= k -> held eqD st (tcells u) -> NoDup (NUnit :: hn (x ++ leaves u s)) -> reach x a c -> sub c cs ->
  perf (leaves u s) a c = Ok (a', c') -> snd_ itb -> hcall k n u s a st cs itb = Ok (y, cs', tr, itb', lg) ->
  y = a' /\ step x c cs (leaves u s) a' c' cs' /\ snd_ itb'.
Proof.
  intros I Sz Hd Nd R Su P Sn H.
  assert (Rp := held_rep st u Hd).
  assert (Tr : htracks eqD eqE eq_unit (hgood c_node) st (hcall k n u s a) (c_fold c_node u s a) (hgood c_node (handle tq u, s, a))).
  { apply htracks_memo; [intros ? ? Q; now apply slr_same_eq in Q|intros cs0 y0 W; exact (W _ Rp)|].
    apply lr_htracks; [apply c_node_proper|apply node_tracks|exact Rp|exact Sz]. }
  specialize (Tr cs itb Sn). rewrite H in Tr. destruct Tr as ((c1 & E1 & Al) & Sn' & _).
  rewrite (fold_perf u I) in E1.
  destruct (perf_step _ x a c cs a' c' Nd (reach_tidy _ _ _ (nodup_pre _ _ Nd) R) Su P) as (cs1 & P1 & St).
  rewrite P1 in E1. injection E1 as <- <-. split; [reflexivity|]. split; [|exact Sn']. eapply step_alike; eauto.
Qed.

Section Second.
Context (xst : hist) (ast : sskiplist) (cst : cells).
Hypothesis Nst : NoDup (NUnit :: hn xst).
Hypothesis Rst : reach xst ast cst.
Definition there (x : hist) (cs : cells) : Prop := (exists z, xst = x ++ z) -> sub cst cs.
Lemma there_step x c cs y a' c' cs' : reach (x ++ y) a' c' -> step x c cs y a' c' cs' -> there x cs -> there (x ++ y) cs'.
Proof.
  intros R' St Th (z & E1). apply (step_keep _ _ _ _ _ _ _ _ St).
  - eapply reach_sub; [|exact R'|rewrite <- E1; exact Rst]. rewrite <- E1. exact Nst.
  - apply Th. exists (y ++ z). now rewrite app_assoc.
Qed.

Definition second_ok (u : rtree) : Prop := forall k s x a c a' c' (st : rstore) cs itb T,
  t_size u <= k -> held eqD st (tcells u) -> NoDup (NUnit :: hn (x ++ leaves u s)) -> reach x a c -> sub c cs ->
  perf (leaves u s) a c = Ok (a', c') -> snd_ itb -> there x cs ->
  (forall m b, In m (names u) -> entry_ok xst cst (at_ itb (fk b m)) (T (fk b m))) ->
  exists y cs' tr itb' lg T' lgm, hf k (handle tq u) s a st cs itb = Ok (y, cs', tr, itb', lg) /\
    mf u s x T = Ok (x ++ leaves u s, T', lgm) /\ length lg <= length lgm /\
    touch (forks (names u)) (at_ itb) (at_ itb') /\ touch (forks (names u)) T T'.
Lemma second_call n u : inner_named u -> second_ok u -> forall k s x a c a' c' (st : rstore) cs itb T,
  t_size u <= k -> held eqD st (tcells u) -> NoDup (NUnit :: hn (x ++ leaves u s)) -> reach x a c -> sub c cs ->
  perf (leaves u s) a c = Ok (a', c') -> snd_ itb -> there x cs ->
  (forall m b, In m (names u) -> entry_ok xst cst (at_ itb (fk b m)) (T (fk b m))) -> entry_ok xst cst (at_ itb n) (T n) ->
  exists cs' tr itb' lg T' lgm, hcall k n u s a st cs itb = Ok (a', cs', tr, itb', lg) /\
    mcall n u s x T = Ok (x ++ leaves u s, T', lgm) /\ step x c cs (leaves u s) a' c' cs' /\ length lg <= length lgm /\ snd_ itb' /\
    touch (fun n' => n' = n \/ forks (names u) n') (at_ itb) (at_ itb') /\
    touch (fun n' => n' = n \/ forks (names u) n') T T'.
Proof.
  intros I F k s x a c a' c' st cs itb T Sz Hd Nd R Su P Sn Th Es En.
  assert (G : exists y cs' tr itb' lg T' lgm, hcall k n u s a st cs itb = Ok (y, cs', tr, itb', lg) /\
    mcall n u s x T = Ok (x ++ leaves u s, T', lgm) /\ length lg <= length lgm /\
    touch (fun n' => n' = n \/ forks (names u) n') (at_ itb) (at_ itb') /\ touch (fun n' => n' = n \/ forks (names u) n') T T').
  { destruct (F k s x a c a' c' st cs itb T Sz Hd Nd R Su P Sn Th Es) as (y & cs' & tr & itb' & lg & T' & lgm & G1 & G2 & Ln & To1 & To2).
    assert (Miss : exists T2 lgm2, mcall n u s x T = Ok (x ++ leaves u s, T2, lgm2) /\ touch (fun n' => n' = n \/ forks (names u) n') T T2 /\
      (lgm2 = lgm \/ lgm2 = [] /\ exists e, at_ itb n = Some e /\ he_arg e = (handle tq u, s, a) /\ hheld eqD eqE eq_unit st cs (he_seen e))).
    { unfold memo. destruct (T n) as [[[[u1 s1] x1] r1]|].
      - destruct (lr_same eqD eqH (u, s, x) (u1, s1, x1)) eqn:Sm.
        + apply lr_same_eq in Sm. injection Sm as <- <- <-. cbn [entry_ok] in En. destruct En as (-> & e & a1 & c1 & Ee & R1 & Ea & Pz & Fs).
          eexists T, []. split; [reflexivity|]. split; [apply touch_refl|]. right. split; [reflexivity|]. exists e. split; [exact Ee|].
          unfold reach in R, R1. rewrite R in R1. injection R1 as <- <-. split; [exact Ea|].
          unfold hheld. apply forallb_forall. intros h Ih. rewrite Forall_forall in Fs. specialize (Fs h Ih). destruct h as [q|b p]; cbn [seen_in hholds] in *.
          * unfold held in Hd. rewrite forallb_forall in Hd. now apply Hd.
          * specialize (Th Pz _ _ Fs). rewrite Th. destruct (eq_spath eqE eq_unit p p); congruence.
        + rewrite G2. cbn [bind]. eexists _, _. split; [reflexivity|]. split; [now apply touch_mset|now left].
      - rewrite G2. cbn [bind]. eexists _, _. split; [reflexivity|]. split; [now apply touch_mset|now left]. }
    destruct Miss as (T2 & lgm2 & M1 & M2 & M3). unfold h_memo. unfold at_ in M3.
    destruct (itb (here_, n)) as [e|] eqn:Ei.
    - destruct (slr_same eqD eq_sskiplist (handle tq u, s, a) (he_arg e) && forallb (hholds eqD eqE eq_unit st cs) (he_seen e)) eqn:Sm.
      + eexists _, _, _, _, _, _, _. split; [reflexivity|]. split; [exact M1|]. split; [simpl; lia|]. split; [apply touch_refl|exact M2].
      + destruct M3 as [->|(_ & e' & Ee & Ea & Hh)].
        * rewrite G1. cbn [bind]. eexists _, _, _, _, _, _, _. split; [reflexivity|]. split; [exact M1|]. split; [exact Ln|]. split; [now apply touch_set|exact M2].
        * injection Ee as <-. unfold hheld in Hh. rewrite Hh, andb_true_r in Sm. rewrite Ea in Sm.
          assert (slr_same eqD eq_sskiplist (handle tq u, s, a) (handle tq u, s, a) = true) by now apply slr_same_eq. congruence.
    - destruct M3 as [->|(_ & e' & Ee & _)]; [|discriminate].
      rewrite G1. cbn [bind]. eexists _, _, _, _, _, _, _. split; [reflexivity|]. split; [exact M1|]. split; [exact Ln|]. split; [now apply touch_set|exact M2]. }
  destruct G as (y & cs' & tr & itb' & lg & T' & lgm & G1 & G2 & Ln & To1 & To2).
  destruct (call_gives n u k s x a c a' c' st cs itb y cs' tr itb' lg I Sz Hd Nd R Su P Sn G1) as (-> & St & Sn').
  exists cs', tr, itb', lg, T', lgm. auto 10.
Qed.

Lemma second_run u : inner_named u -> NoDup (names u) -> second_ok u.
Proof.
  induction u as [lv nm d ol or Hl Hr] using tree_induction. intros I Ndn k s x a c a' c' st cs itb T Sz Hd Nd R Su H Sn Th B.
  destruct k as [|k]; [simpl in Sz; lia|].
  destruct (inner_named_case _ I) as [(lv' & d' & Q)|(lv' & n & d' & l & r & Q & Il & Ir)]; inv Q.
  { cbn [leaves] in *. pose proof (perf_hev a d' lv' s c) as Hn. rewrite H in Hn. symmetry in Hn.
    destruct (node_step x a c cs d' lv' s a' c' Nd (reach_tidy _ _ _ (nodup_pre _ _ Nd) R) Su Hn) as (cs' & _ & St & G).
    destruct (G st itb) as (tr & G1 & F). eexists _, cs', tr, itb, _, T, _. split; [apply hf_leaf; exact G1|]. split; [reflexivity|]. split; [simpl; lia|].
    split; [apply touch_refl|]. apply touch_refl. }
  simpl in Hl, Hr. rewrite names_at in *. cbn [leaves] in H, Nd |- *. simpl in Sz.
  destruct (at_parts n l r Ndn) as (A1 & A2 & Nl & Nr & A5). destruct (held_node _ _ _ _ _ _ Hd) as [Hdl Hdr].
  set (xl := leaves l s) in *. set (xr := leaves r (Some n)) in *. set (xm := hev d' (Some n)) in *.
  destruct (perf_split _ _ _ _ _ _ H) as (a1 & c1 & P1 & H'). destruct (perf_split _ _ _ _ _ _ H') as (a2 & c2 & P2 & P3). clear H'.
  assert (Nd3 : NoDup (NUnit :: hn (((x ++ xl) ++ xm) ++ xr))) by (rewrite <- !app_assoc; exact Nd).
  pose proof (nodup_pre _ _ Nd3) as Nd2. pose proof (nodup_pre _ _ Nd2) as Nd1.
  pose proof (reach_app _ _ _ _ _ _ R P1) as R1. pose proof (reach_app _ _ _ _ _ _ R1 P2) as R2.
  destruct (second_call (NForkL n) l Il (Hl Il Nl) k s x a c a1 c1 st cs itb T) as (cs1 & tr1 & itb1 & lg1 & T1 & lgm1 & G1 & M1 & St1 & L1 & Sn1 & Th1 & Tm1); auto; try lia.
  { intros m b Im. apply B. right. apply in_or_app. now left. }
  { apply (B n true). now left. }
  pose proof (there_step _ _ _ _ _ _ _ R1 St1 Th) as J1.
  pose proof P2 as P2'. unfold xm in P2'. rewrite (perf_hev a1 d' lv' (Some n)) in P2'.
  destruct (node_step (x ++ xl) a1 c1 cs1 d' lv' (Some n) a2 c2 Nd2) as (cs2 & _ & St2 & G2'); [apply (reach_tidy _ _ _ Nd1 R1)|exact (step_new _ _ _ _ _ _ _ St1)|exact P2'|].
  pose proof (there_step _ _ _ _ _ _ _ R2 St2 J1) as J2.
  destruct (G2' st itb1) as (tr2 & G2 & F2). clear G2'.
  destruct (second_call (NForkR n) r Ir (Hr Ir Nr) k (Some n) ((x ++ xl) ++ xm) a2 c2 a' c' st cs2 itb1 T1) as (cs3 & tr3 & itb3 & lg3 & T3 & lgm3 & G3 & M3 & St3 & L3 & Sn3 & Th3 & Tm3); auto; try lia.
  { exact (step_new _ _ _ _ _ _ _ St2). }
  { intros m b Im. rewrite (keep_r n l r Ndn _ _ b m Th1 Im), (keep_r n l r Ndn _ _ b m Tm1 Im). apply B. right. apply in_or_app. now right. }
  { rewrite (keep_fr n l r Ndn _ _ Th1), (keep_fr n l r Ndn _ _ Tm1). apply (B n false). now left. }
  fold xr in M3, St3.
  eexists _, cs3, _, itb3, _, T3, _. split; [eapply hf_node; eauto|].
  split; [rewrite (mf_node _ _ _ _ _ _ _ _ _ _ _ _ _ _ M1 M3); rewrite <- !app_assoc; reflexivity|].
  split; [cbn [length]; rewrite !app_length; lia|].
  split; eapply touch_node; eauto.
Qed.
End Second.

(** ** Raz trees *)
Notation at_atoms t := (tree_atoms (Some t)).
Definition onm (o : option name) : list name := match o with Some n => [n] | None => [] end.
Lemma hn_leaves (t : rtree) : tree_ok t -> forall s, hn (leaves t s) = onm s ++ named_marks (at_atoms t).
Proof.
  induction t as [lv nm d l r Hl Hr] using tree_induction. intros O s.
  destruct (tree_ok_case _ O) as [(v & X & Hv)|(lv' & nm' & ml & mr & tl & tr & X & Lv & _ & _ & Kl & Kr)]; inv X.
  - change (at_atoms (Node 0%N None (Leaf v) None None)) with (at_atoms (leaf_of (M := M) v)). rewrite tree_atoms_leaf.
    assert (Z : forall w : list E, named_marks (map (@Elt E level) w) = []) by (induction w; auto).
    rewrite Z, app_nil_r. cbn. destruct s; reflexivity.
  - rewrite tree_atoms_branch. simpl in Hl, Hr. cbn [leaves hev app]. rewrite hn_app, (Hl Kl), (Hr Kr), <- app_assoc. f_equal.
    unfold named_marks. rewrite flat_map_app. reflexivity.
Qed.

Notation start := (Some (NStr "start")).
Notation urun k := (unique_elms_inc eqD eqE my_hash debug k pathlen).
Notation mrun := (m_rt_lr eqD eqH note []).
Hypothesis Hp : 0 < pathlen.
Hypothesis Hd : debug = true -> pathlen < 64.

Lemma reaches (t : raz_tree E M) tr : tree_reached false t -> NoDup (NUnit :: NStr "start" :: named_marks (contents t)) ->
  rt_tree t = Some tr -> inner_named tr -> exists a c, reach (leaves tr start) a c.
Proof.
  intros R Nd Et I. destruct (unique_store_ok keqb my_hash debug (eqb_of_spec eqE) pathlen Hp Hd here_ false none t R Nd) as (c & a & U & _).
  unfold unique_elms_store, rt_fold_lr_archive in U. rewrite Et in U.
  pose proof (fold_same eqE my_hash debug (t_size tr) tr start (Ok (init, none)) (le_n _)) as F.
  cbn [bind] in F. apply (eq_trans (eq_sym F)) in U. clear F.
  rewrite (fold_perf tr I) in U. exists a, c. unfold reach. destruct (perf (leaves tr start) init none) as [[a1 c1]| |]; inversion U; subst; reflexivity.
Qed.

Section Rerun.
Context (t t' : raz_tree E M).
Hypothesis reached : Forall (fun t => tree_reached false t) [t'; t].
Hypothesis disciplined : orderly_points (map contents [t'; t]).
Hypothesis fresh : Forall (fun t => NoDup (NUnit :: NStr "start" :: named_marks (contents t))) [t'; t].

Lemma part (u : raz_tree E M) tr : In u [t'; t] -> rt_tree u = Some tr ->
  tree_ok tr /\ inner_named tr /\ NoDup (names tr) /\ NoDup (NUnit :: hn ([] ++ leaves tr start)) /\ exists a c, reach (leaves tr start) a c.
Proof.
  intros Iu Et. pose proof (reached_ok t t' [] reached) as Rok. rewrite Forall_forall in Rok, reached, fresh.
  pose proof (Rok u Iu) as O. rewrite Et in O. simpl in O. split; [exact O|].
  assert (Q : inner_named tr /\ NoDup (names tr)).
  { cbn [map orderly_points] in disciplined. destruct disciplined as ((_ & B1 & B2 & _) & B3 & B4 & _).
    destruct Iu as [<-|[<-|[]]]; unfold contents in *; rewrite Et in *;
      (split; [now apply tree_inner_named|now apply tree_names_nodup]). }
  destruct Q as [Q1 Q2]. split; [exact Q1|]. split; [exact Q2|]. split.
  - cbn [app]. rewrite (hn_leaves tr O). pose proof (fresh u Iu) as N. unfold contents in N. rewrite Et in N. exact N.
  - apply (reaches u); auto.
Qed.

Lemma two_runs : exists k0, forall k (st st' : rstore) cs h h', k0 <= k ->
  tree_reads (within tq st) h t -> tree_reads (within tq st') h' t' ->
  exists y cs1 tr tab lg y' cs2 tr' tab' lg' x T lgm x' T' lgm',
    urun k h st cs no_hentries = Ok (y, cs1, tr, tab, lg) /\ urun k h' st' cs1 tab = Ok (y', cs2, tr', tab', lg') /\
    mrun t no_memos = Ok (x, T, lgm) /\ mrun t' T = Ok (x', T', lgm') /\ length lg' <= length lgm'.
Proof.
  exists (match rt_tree t with None => 0 | Some u => t_size u end + match rt_tree t' with None => 0 | Some u => t_size u end).
  intros k st st' cs h h' Hk [_ Rd] [_ Rd'].
  assert (First : exists y cs1 tr tab lg x T lgm xst ast cst, urun k h st cs no_hentries = Ok (y, cs1, tr, tab, lg) /\
    mrun t no_memos = Ok (x, T, lgm) /\ NoDup (NUnit :: hn xst) /\ reach xst ast cst /\ sub cst cs1 /\ snd_ tab /\
    forall m b, entry_ok xst cst (at_ tab (fk b m)) (T (fk b m))).
  { unfold unique_elms_inc, m_rt_lr. destruct (rt_tree t) as [u|] eqn:Et.
    - destruct (srt_tree h) as [hu|]; [|contradiction]. apply reads_rep, (homed eqD) in Rd. destruct Rd as [-> He].
      destruct (part t u (or_intror (or_introl eq_refl)) Et) as (O & I & Nn & Nh & a & c & R).
      destruct (first_run u I Nn k start [] init none a c st cs no_hentries no_memos) as (cs1 & tr & tab & lg & T & lgm & G1 & G2 & St & _ & To1 & To2 & En); auto; try lia.
      { reflexivity. } { intros b p Q. discriminate. } { intros m b _. split; reflexivity. }
      assert (Sn : snd_ tab).
      { pose proof (lr_htracks eqD eqE eq_unit eq_sskiplist _ _ (c_node_proper eqE my_hash debug) (node_tracks eqD eqE my_hash debug) k st (handle tq u) u start init (held_rep st u He)) as Tk.
        specialize (Tk ltac:(lia) cs no_hentries (no_hentries_sound _ _ _ _)). rewrite G1 in Tk. apply Tk. }
      eexists _, _, _, _, _, _, _, _, (leaves u start), a, c. split; [exact G1|]. split; [exact G2|]. split; [exact Nh|]. split; [exact R|].
      split; [exact (step_new _ _ _ _ _ _ _ St)|]. split; [exact Sn|]. intros m b.
      destruct (in_dec name_eq_dec m (names u)) as [Im|Nm]; [now apply (En m b)|].
      rewrite (touch_at _ _ _ _ To2) by (rewrite forks_fk; exact Nm). exact Logic.I.
    - destruct (srt_tree h) as [hu|]; [contradiction|]. eexists _, _, _, _, _, _, _, _, [], init, none. split; [reflexivity|]. split; [reflexivity|].
      split; [constructor; [intros []|constructor]|]. split; [reflexivity|]. split; [intros b p Q; discriminate|].
      split; [apply no_hentries_sound|]. intros m b. exact Logic.I. }
  destruct First as (y & cs1 & tr & tab & lg & x & T & lgm & xst & ast & cst & F1 & F2 & Nst & Rst & Sst & Sn & En).
  assert (Second : exists y' cs2 tr' tab' lg' x' T' lgm', urun k h' st' cs1 tab = Ok (y', cs2, tr', tab', lg') /\
    mrun t' T = Ok (x', T', lgm') /\ length lg' <= length lgm').
  { unfold unique_elms_inc, m_rt_lr. destruct (rt_tree t') as [u|] eqn:Et.
    - destruct (srt_tree h') as [hu|]; [|contradiction]. apply reads_rep, (homed eqD) in Rd'. destruct Rd' as [-> He].
      destruct (part t' u (or_introl eq_refl) Et) as (O & I & Nn & Nh & a & c & R).
      destruct (second_run xst ast cst Nst Rst u I Nn k start [] init none a c st' cs1 tab T) as (y' & cs2 & tr' & tab' & lg' & T' & lgm' & G1 & G2 & Ln & _); auto; try lia.
      { reflexivity. } { intros b p Q. discriminate. } { intros _. exact Sst. }
      eexists _, _, _, _, _, _, _, _. split; [exact G1|]. split; [exact G2|exact Ln].
    - destruct (srt_tree h') as [hu|]; [contradiction|]. eexists _, _, _, _, _, _, _, _. split; [reflexivity|]. split; [reflexivity|]. simpl. lia. }
  destruct Second as (y' & cs2 & tr' & tab' & lg' & x' & T' & lgm' & S1 & S2 & Ln).
  exists y, cs1, tr, tab, lg, y', cs2, tr', tab', lg', x, T, lgm, x', T', lgm'. auto 10.
Qed.

Theorem unique_rerun pre mid mid' post : contents t = pre ++ mid ++ post -> contents t' = pre ++ mid' ++ post ->
  exists k0, forall k (st st' : rstore) cs h h', k0 <= k ->
  tree_reads (within tq st) h t -> tree_reads (within tq st') h' t' ->
  exists y cs1 tr tab lg y' cs2 tr' tab' lg',
    urun k h st cs no_hentries = Ok (y, cs1, tr, tab, lg) /\ urun k h' st' cs1 tab = Ok (y', cs2, tr', tab', lg') /\
    length lg' <= 1 + 2 * (seen_from_right pre + length (marks mid') + length (marks post)) /\
    (contents t' = contents t -> length lg' <= 1).
Proof.
  intros B A. destruct two_runs as [k0 K]. exists k0. intros k st st' cs h h' Hk R R'.
  destruct (K k st st' cs h h' Hk R R') as (y & cs1 & tr & tab & lg & y' & cs2 & tr' & tab' & lg' & x & T & lgm & x' & T' & lgm' & H1 & H2 & M1 & M2 & Ln).
  exists y, cs1, tr, tab, lg, y', cs2, tr', tab', lg'. split; [exact H1|]. split; [exact H2|].
  assert (Rs : runs mrun (rev [t]) no_memos = Ok ([x], T, [lgm])) by (cbn [rev app runs]; rewrite M1; reflexivity).
  split.
  - etransitivity; [exact Ln|]. refine (lr_cost eqD t t' [] pre mid mid' post reached disciplined B A eqH note (fun a _ _ => a) [] _ _ _ _ _ _ _ Rs M2).
    intros a p q lv nm. apply app_nil_r.
  - intros Sm. etransitivity; [exact Ln|]. exact (lr_again eqD t t' [] reached disciplined Sm eqH note [] _ _ _ _ _ _ Rs M2).
Qed.
End Rerun.
End Cost.
