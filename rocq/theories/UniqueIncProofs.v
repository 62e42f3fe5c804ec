(** * Memoised unique_elms over stores answers as from scratch. *)

From Verif Require Import Base BaseFacts Spec SpecRaz LevelTreeModel TreeSpec TreeProofs TreeCursorModel RazMetaModel RazModel RazView RazScripts RazReach
  MemoModel MemoSpec StoreModel StoreSpec StoreScripts StoreProofs StoreRaz StoreHistory IncModel IncSpec IncProofs
  SkiplistModel MapScripts SkiplistProofs SkipStoreModel SkipStoreSpec SkipStoreProofs UniqueStoreModel UniqueStoreProofs UniqueIncModel UniqueIncSpec.

(** ** Cells up to pointwise equality *)
Section Cells.
Context {K V : Type}.
Notation cells := (cells K V).
Definition alike (c c' : cells) : Prop := forall a, c a = c' a.
Lemma alike_refl c : alike c c.
Proof. intros a. reflexivity. Qed.
Lemma alike_sym c c' : alike c c' -> alike c' c.
Proof. intros H a. now rewrite H. Qed.
Lemma alike_trans c c' c2 : alike c c' -> alike c' c2 -> alike c c2.
Proof. intros H H' a. now rewrite H. Qed.
Lemma alike_put c c' a p : alike c c' -> alike (put_cell c a p) (put_cell c' a p).
Proof. intros H b. unfold put_cell. destruct (loc_eq_dec b a); auto. Qed.
Lemma alike_back (c : cells) a p : c a = Some p -> alike (put_cell c a p) c.
Proof. intros H b. unfold put_cell. destruct (loc_eq_dec b a); congruence. Qed.

(** Plain computations on cells. *)
Definition cm (Y : Type) : Type := cells -> res (Y * cells).
Definition c_ret {Y} (y : Y) : cm Y := fun c => Ok (y, c).
Definition c_bind {Y Z} (m : cm Y) (f : Y -> cm Z) : cm Z := fun c => do ' (y, c1) <- m c; f y c1.
Definition c_lift {Y} (m : res Y) : cm Y := fun c => do y <- m; Ok (y, c).
Definition near {Y} (x x' : res (Y * cells)) : Prop :=
  match x, x' with
  | Ok (y, c), Ok (y', c') => y = y' /\ alike c c'
  | Panic s, Panic s' => s = s'
  | Fuel, Fuel => True
  | _, _ => False
  end.
Definition proper {Y} (m : cm Y) : Prop := forall c c', alike c c' -> near (m c) (m c').
(** Run where its effects are there already. *)
Definition again {Y} (m : cm Y) (c : cells) (y : Y) : Prop := exists c', m c = Ok (y, c') /\ alike c' c.

Lemma proper_ret {Y} (y : Y) : proper (c_ret y).
Proof. intros c c' H. simpl. auto. Qed.
Lemma proper_lift {Y} (m : res Y) : proper (c_lift m).
Proof. intros c c' H. unfold c_lift. destruct m; simpl; auto. Qed.
Lemma proper_bind {Y Z} (m : cm Y) (f : Y -> cm Z) : proper m -> (forall y, proper (f y)) -> proper (c_bind m f).
Proof.
  intros Pm Pf c c' H. unfold c_bind. specialize (Pm c c' H).
  destruct (m c) as [[y c1]|s|], (m c') as [[y' c1']|s'|]; simpl in *; try contradiction; auto. destruct Pm as [-> H1]. now apply Pf.
Qed.
Lemma again_bind {Y Z} (m : cm Y) (f : Y -> cm Z) c y z : proper (f y) -> again m c y -> again (f y) c z -> again (c_bind m f) c z.
Proof.
  intros Pf (c1 & H1 & A1) (c2 & H2 & A2). unfold again, c_bind. rewrite H1. cbn [bind].
  pose proof (Pf _ _ A1) as N. rewrite H2 in N. destruct (f y c1) as [[z' c3]|s|]; simpl in N; try contradiction. destruct N as [-> A3].
  exists c3. split; [reflexivity|]. eapply alike_trans; eauto.
Qed.
End Cells.

(** ** What the engine does *)
Section Track.
Context {T A K V : Type} (eqA : forall x y : A, {x = y} + {x <> y}) (eqK : forall x y : K, {x = y} + {x <> y})
  (eqV : forall x y : V, {x = y} + {x <> y}) {Nsp : here} {X R : Type}.
Notation cells := (cells K V).
Notation hm := (@hm T A K V X R).
Notation htab := (@htab A K V X R).
Variable good : X -> store T A -> cells -> R -> Prop.
Definition hheld (st : store T A) (cs : cells) (tr : list (@hseen A K V)) : Prop := forallb (hholds eqA eqK eqV st cs) tr = true.
Lemma hheld_app st cs tr tr' : hheld st cs (tr ++ tr') <-> hheld st cs tr /\ hheld st cs tr'.
Proof. unfold hheld. now rewrite forallb_app, andb_true_iff. Qed.
Lemma hheld_path st cs a p : hheld st cs [HPath a p] <-> cs a = Some p.
Proof.
  unfold hheld. cbn [forallb hholds]. rewrite andb_true_r. destruct (cs a) as [p'|]; [|split; discriminate].
  destruct (eq_spath eqK eqV p p') as [->|N]; split; congruence.
Qed.

Definition hsound (tab : htab) : Prop :=
  forall a e, tab a = Some e -> forall st cs, hheld st cs (he_seen e) -> good (he_arg e) st cs (he_res e).

(** In the store [st], [m] does as [p], and wherever the cells it saw are the same, its
    answer satisfies [Q]. *)
Definition htracks {Y} (st : store T A) (m : hm Y) (p : cm Y) (Q : store T A -> cells -> Y -> Prop) : Prop :=
  forall cs tab, hsound tab ->
  match m st cs tab with
  | Ok (y, cs', tr, tab', _) =>
      (exists c1, p cs = Ok (y, c1) /\ alike c1 cs') /\ hsound tab' /\ forall st2 cs2, hheld st2 cs2 tr -> Q st2 cs2 y
  | Panic s => p cs = Panic s
  | Fuel => p cs = Fuel
  end.

Lemma htracks_ret {Y} st (y : Y) (Q : store T A -> cells -> Y -> Prop) : (forall st2 cs2, Q st2 cs2 y) -> htracks st (h_ret y) (c_ret y) Q.
Proof. intros H cs tab S. simpl. split; [exists cs; split; [reflexivity|apply alike_refl]|auto]. Qed.
Lemma htracks_lift {Y} st (p : res Y) (Q : store T A -> cells -> Y -> Prop) : (forall y st2 cs2, p = Ok y -> Q st2 cs2 y) -> htracks st (h_lift p) (c_lift p) Q.
Proof.
  intros H cs tab S. unfold h_lift, c_lift. destruct p as [y| |]; cbn [bind]; auto.
  split; [exists cs; split; [reflexivity|apply alike_refl]|auto].
Qed.
Lemma htracks_bind {Y Z} st (m : hm Y) p Q (f : Y -> hm Z) g (Q' : store T A -> cells -> Z -> Prop) :
  htracks st m p Q -> (forall y, proper (g y)) ->
  (forall y, (exists c c1, p c = Ok (y, c1)) -> htracks st (f y) (g y) (fun st2 cs2 z => Q st2 cs2 y -> Q' st2 cs2 z)) ->
  htracks st (h_bind m f) (c_bind p g) Q'.
Proof.
  intros H Pg F cs tab S. unfold h_bind, c_bind. specialize (H cs tab S).
  destruct (m st cs tab) as [[[[[y cs1] tr] tab1] lg]|s|]; [|rewrite H; reflexivity..].
  destruct H as ((c1 & E1 & A1) & S1 & W). specialize (F y (ex_intro _ cs (ex_intro _ c1 E1)) cs1 tab1 S1). rewrite E1. cbn [bind]. pose proof (Pg y _ _ A1) as N.
  destruct (f y st cs1 tab1) as [[[[[z cs2] tr2] tab2] lg2]|s|]; cbn [bind].
  - destruct F as ((c2 & E2 & A2) & S2 & W2). rewrite E2 in N. destruct (g y c1) as [[z' c3]|s|]; simpl in N; try contradiction.
    destruct N as [-> A3]. split; [exists c3; split; [reflexivity|eapply alike_trans; eauto]|]. split; [exact S2|].
    intros st2 cs3 [P1 P2]%hheld_app. apply W2; auto.
  - rewrite F in N. destruct (g y c1) as [[z' c3]|s'|]; simpl in N; try contradiction. congruence.
  - rewrite F in N. destruct (g y c1) as [[z' c3]|s'|]; simpl in N; try contradiction. reflexivity.
Qed.
Lemma htracks_weaken {Y} st (m : hm Y) p (Q Q' : store T A -> cells -> Y -> Prop) :
  htracks st m p Q -> (forall st2 cs2 y, Q st2 cs2 y -> Q' st2 cs2 y) -> htracks st m p Q'.
Proof.
  intros H W cs tab S. specialize (H cs tab S). destruct (m st cs tab) as [[[[[y cs1] tr] tab1] lg]|s|]; auto.
  destruct H as (H1 & H2 & H3). auto.
Qed.
Lemma htracks_eq {Y} st (m : hm Y) p p' (Q : store T A -> cells -> Y -> Prop) :
  (forall c, p c = p' c) -> htracks st m p Q -> htracks st m p' Q.
Proof. intros E H cs tab S. specialize (H cs tab S). now rewrite E in H. Qed.
Lemma htracks_enter st h (Q : store T A -> cells -> unit -> Prop) : (forall st2 cs2, Q st2 cs2 tt) -> htracks st (h_enter h) (c_ret tt) Q.
Proof. intros H cs tab S. simpl. split; [exists cs; split; [reflexivity|apply alike_refl]|auto]. Qed.
Lemma htracks_force st h x : tree_look st h = Some x ->
  htracks st (h_force h) (c_ret x) (fun st2 _ y => tree_look st2 h = Some y).
Proof.
  intros H cs tab S. unfold h_force. rewrite H. cbn [unwrap bind]. split; [exists cs; split; [reflexivity|apply alike_refl]|].
  split; [exact S|]. intros st2 cs2 P. destruct h as [|lv a]; [exact H|]. unfold hheld in P. cbn [forallb hholds] in P. rewrite andb_true_r in P.
  now apply holds_eq in P.
Qed.
Lemma htracks_get st a : htracks st (h_get_cell a) (fun c => do p <- unwrap "force: no such cell" (c a); Ok (p, c))
  (fun _ cs2 p => cs2 a = Some p).
Proof.
  intros cs tab S. unfold h_get_cell. destruct (cs a) as [p|] eqn:Ea; cbn [unwrap bind]; [|reflexivity].
  split; [exists cs; split; [reflexivity|apply alike_refl]|]. split; [exact S|]. intros st2 cs2 P. now apply hheld_path in P.
Qed.
Lemma htracks_put st a p : htracks st (h_put_cell a p) (fun c => Ok (tt, put_cell c a p)) (fun _ cs2 _ => cs2 a = Some p).
Proof.
  intros cs tab S. unfold h_put_cell. split; [eexists; split; [reflexivity|apply alike_refl]|]. split; [exact S|].
  intros st2 cs2 P. now apply hheld_path in P.
Qed.
Lemma htracks_memo same (Hs : forall k k', same k k' = true -> k = k') st n k body p :
  (forall cs x, good k st cs x -> again p cs x) ->
  htracks st body p (good k) -> htracks st (h_memo eqA eqK eqV same n k body) p (good k).
Proof.
  intros D B cs tab S. unfold h_memo.
  assert (Rr : match (do ' (r, cs', s, tab', lg) <- body st cs tab; Ok (r, cs', s, h_set tab' (StoreModel.path, n) (HEntry k s r), lg)) with
     | Ok (y, cs', tr, tab', _) => (exists c1, p cs = Ok (y, c1) /\ alike c1 cs') /\ hsound tab' /\ forall st2 cs2, hheld st2 cs2 tr -> good k st2 cs2 y
     | Panic s => p cs = Panic s | Fuel => p cs = Fuel end).
  { specialize (B cs tab S). destruct (body st cs tab) as [[[[[x cs1] tr] tab1] lg]|s|]; cbn [bind]; auto.
    destruct B as (B1 & S1 & W). split; [exact B1|]. split; [|exact W]. intros a e. unfold h_set.
    destruct (loc_eq_dec a (StoreModel.path, n)) as [->|Ne]; [|apply S1]. intros [= <-]. exact W. }
  destruct (tab (StoreModel.path, n)) as [e|] eqn:Te; [|exact Rr].
  destruct (same k (he_arg e) && forallb (hholds eqA eqK eqV st cs) (he_seen e)) eqn:Sm; [|exact Rr].
  apply andb_true_iff in Sm. destruct Sm as (Sk%Hs & H). subst k.
  pose proof (S _ _ Te) as W. split; [|auto]. destruct (D cs _ (W _ _ H)) as (c1 & E1 & A1). eauto.
Qed.
Lemma htracks_memo_opt same (Hs : forall k k', same k k' = true -> k = k') st n k body p :
  (forall cs x, good k st cs x -> again p cs x) ->
  htracks st body p (good k) -> htracks st (h_memo_opt eqA eqK eqV same n k body) p (good k).
Proof. destruct n; [apply htracks_memo|]; auto. Qed.
Lemma no_hentries_sound : hsound no_hentries.
Proof. discriminate. Qed.
End Track.

(** ** The skiplist *)
Section Skip.
Context {T A K V : Type} (eqA : forall x y : A, {x = y} + {x <> y}) (eqK : forall x y : K, {x = y} + {x <> y})
  (eqV : forall x y : V, {x = y} + {x <> y}) {Nsp : here} {X R : Type}.
Context (keqb : K -> K -> bool) (my_hash : K -> N) (debug : bool).
Notation cells := (cells K V).
Notation hm := (@hm T A K V X R).
Variable good : X -> store T A -> cells -> R -> Prop.
Notation tracks := (htracks eqA eqK eqV good).

Lemma rec_alike fuel : forall len key cur cp (c c' : cells), alike c c' ->
  s_build_path_rec debug c fuel len key cur cp = s_build_path_rec debug c' fuel len key cur cp.
Proof.
  induction fuel as [|fuel IH]; intros len key cur cp c c' H; cbn [s_build_path_rec]; [reflexivity|].
  rewrite <- (H cur). destruct (c cur) as [p|]; cbn [unwrap bind]; [|reflexivity].
  destruct (s_build_path_step debug cur p len key (length cp)) as [r| |]; cbn [bind]; [|reflexivity..].
  destruct (so_kvs r); [reflexivity|]. destruct (so_next r); [|reflexivity]. now apply IH.
Qed.
Lemma find_alike s k (c c' : cells) : alike c c' -> ssk_find my_hash debug c s k = ssk_find my_hash debug c' s k.
Proof.
  intros H. unfold ssk_find. destruct (make_mask _); cbn [bind]; [|reflexivity..].
  destruct (s_head s); [|reflexivity]. now rewrite (rec_alike _ _ _ _ _ _ _ H).
Qed.
Definition reading {Y} (f : cells -> res Y) : cm Y := fun c => do y <- f c; Ok (y, c).
Lemma proper_reading {Y} (f : cells -> res Y) : (forall c c', alike c c' -> f c = f c') -> proper (reading f).
Proof. intros H c c' Al. unfold reading. rewrite <- (H c c' Al). destruct (f c); simpl; auto. Qed.

Lemma rec_tracks fuel : forall st len key cur cp,
  tracks st (h_build_path_rec debug fuel len key cur cp : hm _) (reading (fun c => s_build_path_rec debug c fuel len key cur cp))
    (fun _ cs2 y => s_build_path_rec debug cs2 fuel len key cur cp = Ok y).
Proof.
  induction fuel as [|fuel IH]; intros st len key cur cp cs tab S; cbn [h_build_path_rec]; [reflexivity|].
  unfold reading. cbn [s_build_path_rec]. unfold h_bind at 1, h_get_cell.
  destruct (cs cur) as [p|] eqn:Ec; cbn [unwrap bind]; [|reflexivity].
  unfold h_bind at 1, h_lift at 1. destruct (s_build_path_step debug cur p len key (length cp)) as [r| |] eqn:Es; cbn [bind]; [|reflexivity..].
  cbv zeta. destruct (so_kvs r) as [kvs|] eqn:Ek; [|destruct (so_next r) as [nx|] eqn:En].
  - unfold h_bind, h_lift, h_ret. destruct (assert _ _) as [[]| |] eqn:Ea; cbn [bind]; [|reflexivity..].
    split; [exists cs; split; [reflexivity|apply alike_refl]|]. split; [exact S|].
    intros st2 cs2 P. cbn [app] in P. apply hheld_path in P. rewrite P. cbn [unwrap bind]. rewrite Es. cbn [bind]. rewrite Ek, Ea. reflexivity.
  - specialize (IH st len key nx (cp ++ so_paths r) cs tab S). unfold reading in IH.
    destruct (h_build_path_rec debug fuel len key nx (cp ++ so_paths r) st cs tab) as [[[[[y cs1] tr] tab1] lg]|s|]; cbn [bind]; [|now rewrite IH..].
    destruct IH as (I1 & S1 & W). split; [exact I1|]. split; [exact S1|]. intros st2 cs2 P. cbn [app] in P.
    apply (hheld_app eqA eqK eqV st2 cs2 [_]) in P. destruct P as [P1 P2]. apply hheld_path in P1. rewrite P1. cbn [unwrap bind]. rewrite Es. cbn [bind]. rewrite Ek, En. now apply (W st2).
  - unfold h_bind, h_lift, h_ret. destruct (assert _ _) as [[]| |] eqn:Ea; cbn [bind]; [|reflexivity..].
    split; [exists cs; split; [reflexivity|apply alike_refl]|]. split; [exact S|].
    intros st2 cs2 P. cbn [app] in P. apply hheld_path in P. rewrite P. cbn [unwrap bind]. rewrite Es. cbn [bind]. rewrite Ek, En, Ea. reflexivity.
Qed.
Lemma find_tracks st s k : tracks st (h_find my_hash debug s k : hm _) (reading (fun c => ssk_find my_hash debug c s k))
  (fun _ cs2 y => ssk_find my_hash debug cs2 s k = Ok y).
Proof.
  intros cs tab S. unfold h_find, reading, ssk_find, h_bind at 1, h_lift. destruct (make_mask (s_path_len s)) as [mask| |]; cbn [bind]; [|reflexivity..].
  cbv zeta. destruct (s_head s) as [a|].
  - unfold h_bind, h_ret. pose proof (rec_tracks (s_path_len s + 2) st (s_path_len s) (N.land (my_hash k) mask) a [] cs tab S) as H. unfold reading in H.
    destruct (h_build_path_rec debug (s_path_len s + 2) (s_path_len s) (N.land (my_hash k) mask) a [] st cs tab) as [[[[[[kvs cp] cs1] tr] tab1] lg]|s0|]; cbn [bind].
    + destruct H as ((c1 & E1 & A1) & S1 & W).
      destruct (s_build_path_rec debug cs _ _ _ _ _) as [x| |] eqn:Er; cbn [bind] in E1; try discriminate. injection E1 as -> ->.
      cbn [bind]. split; [exists c1; auto|]. split; [exact S1|]. intros st2 cs2 P. rewrite app_nil_r in P. now rewrite (W st2 cs2 P).
    + destruct (s_build_path_rec debug cs _ _ _ _ _) as [x| |]; cbn [bind] in H |- *; congruence.
    + destruct (s_build_path_rec debug cs _ _ _ _ _) as [x| |]; cbn [bind] in H |- *; congruence.
  - cbn [bind h_ret]. split; [exists cs; split; [reflexivity|apply alike_refl]|]. split; [exact S|]. reflexivity.
Qed.

Definition putting (q : list name) (s : sskiplist) (k : K) (v : V) : cm sskiplist :=
  fun c => do ' (c', s') <- ssk_put keqb my_hash debug q c s k v; Ok (s', c').
Lemma proper_putting q s k v : proper (putting q s k v).
Proof.
  intros c c' H. unfold putting, ssk_put, ssk_ext. rewrite <- (find_alike _ _ _ _ H).
  destruct (ssk_find my_hash debug c s k) as [[[kh o] cp]| |]; cbn [bind]; [|reflexivity..].
  destruct (match o with Some _ => _ | None => _ end) as [[nk ov] cp']. cbn [bind near]. split; [reflexivity|]. now apply alike_put.
Qed.
Lemma put_tracks st q s k v : tracks st (h_put keqb my_hash debug q s k v : hm _) (putting q s k v)
  (fun _ cs2 y => again (putting q s k v) cs2 y).
Proof.
  intros cs tab S. unfold h_put, h_ext, h_bind, putting, ssk_put, ssk_ext.
  pose proof (find_tracks st s k cs tab S) as H. unfold reading in H.
  destruct (h_find my_hash debug s k st cs tab) as [[[[[[[kh o] cp] cs1] tr] tab1] lg]|s0|]; cbn [bind].
  - destruct H as ((c1 & E1 & A1) & S1 & W).
    destruct (ssk_find my_hash debug cs s k) as [x| |] eqn:Er; cbn [bind] in E1; try discriminate. injection E1 as -> ->. cbn [bind].
    destruct (match o with Some _ => _ | None => _ end) as [[nk ov] cp'] eqn:Eo. unfold h_put_cell, h_ret. cbn [bind].
    split; [eexists; split; [reflexivity|now apply alike_put]|]. split; [exact S1|].
    intros st2 cs2 P. rewrite !app_nil_r in P. apply hheld_app in P. destruct P as [P1 P2]. apply hheld_path in P2.
    unfold again, putting, ssk_put, ssk_ext. rewrite (W st2 cs2 P1). cbn [bind]. rewrite Eo. cbn [bind].
    eexists. split; [reflexivity|]. now apply alike_back.
  - destruct (ssk_find my_hash debug cs s k) as [x| |]; cbn [bind] in H |- *; congruence.
  - destruct (ssk_find my_hash debug cs s k) as [x| |]; cbn [bind] in H |- *; congruence.
Qed.
End Skip.

(** ** The fold *)
Section Fold.
Context {T A K V R : Type} {TU : TreeUpdate A} (eqA : forall x y : A, {x = y} + {x <> y}) (eqK : forall x y : K, {x = y} + {x <> y})
  (eqV : forall x y : V, {x = y} + {x <> y}) (eqR : forall x y : R, {x = y} + {x <> y}) {Nsp : here}.
Notation cells := (cells K V).
Notation hm := (@hm T A K V (stree A * option name * R) R).
Variable f : R -> A -> level -> option name -> hm R.
Variable pf : R -> A -> level -> option name -> @cm K V R.

Fixpoint c_fold (t : tree A) (s : option name) (a : R) : cm R :=
  match t with
  | Node lv nm d l r =>
      match l, r with
      | None, None => pf a d lv s
      | _, _ =>
          c_bind (match l with None => c_ret a | Some t1 => c_fold t1 s a end) (fun a1 =>
          c_bind (pf a1 d lv nm) (fun a2 =>
          match r with None => c_ret a2 | Some t2 => c_fold t2 nm a2 end))
      end
  end.
Definition c_branch lv nm d (l r : option (tree A)) (s : option name) (a : R) : cm R :=
  c_bind (match l with None => c_ret a | Some t1 => c_fold t1 s a end) (fun a1 =>
  c_bind (pf a1 d lv nm) (fun a2 =>
  match r with None => c_ret a2 | Some t2 => c_fold t2 nm a2 end)).
Lemma c_fold_branch lv nm d l r s a : l <> None \/ r <> None -> c_fold (Node lv nm d l r) s a = c_branch lv nm d l r s a.
Proof. destruct l, r; auto. intros []; congruence. Qed.

Definition hgood (k : stree A * option name * R) (st : store T A) (cs : cells) (x : R) : Prop :=
  forall t, StoreProofs.rep st (fst (fst k)) t -> again (c_fold t (snd (fst k)) (snd k)) cs x.
Notation tracks := (htracks eqA eqK eqV hgood).
Hypothesis pf_proper : forall a d l n, proper (pf a d l n).
Hypothesis f_tracks : forall st a d l n, tracks st (f a d l n) (pf a d l n) (fun _ cs2 y => again (pf a d l n) cs2 y).

Lemma c_fold_proper k : forall t s a, t_size t <= k -> proper (c_fold t s a).
Proof.
  induction k as [|k IH]; intros [lv nm d l r] s a Sz; [simpl in Sz; lia|].
  assert (Go : forall o s a, match o with None => 0 | Some t => t_size t end <= k ->
    proper match o with None => c_ret a | Some t1 => c_fold t1 s a end).
  { intros [t1|] s0 a0 H; [now apply IH|apply proper_ret]. }
  assert (P : proper (c_branch lv nm d l r s a)).
  { simpl in Sz. apply proper_bind; [apply Go; lia|]. intros a1. apply proper_bind; [apply pf_proper|]. intros a2. apply Go. lia. }
  cbn [c_fold]. destruct l, r; auto.
Qed.
Lemma c_fold_pr t s a : proper (c_fold t s a).
Proof. now apply (c_fold_proper (t_size t)). Qed.
Lemma c_opt_pr (o : option (tree A)) s a : proper match o with None => c_ret a | Some t1 => c_fold t1 s a end.
Proof. destruct o; [apply c_fold_pr|apply proper_ret]. Qed.

Lemma lr_htracks k : forall st h t s a, StoreProofs.rep st h t -> t_size t <= k ->
  tracks st (h_fold_lr_meta eqA eqK eqV eqR k f h s a) (c_fold t s a) (hgood (h, s, a)).
Proof.
  induction k as [|k IH]; intros st h t s a Rp Sz; [destruct t; simpl in Sz; lia|].
  apply rep_eq in Rp. destruct Rp as (E1 & E2 & sl & sr & Lk & Rl & Rr).
  destruct t as [lv nm d l r]. cbn [t_level t_name t_peek t_left t_right] in *. cbn [h_fold_lr_meta].
  apply (htracks_eq eqA eqK eqV hgood st _ (c_bind (c_ret tt) (fun _ => c_bind (c_ret (d, sl, sr)) (fun _ => c_fold (Node lv nm d l r) s a)))); [reflexivity|].
  apply (htracks_bind eqA eqK eqV hgood st _ _ (fun _ _ _ => True)); [now apply htracks_enter| |].
  { intros _. apply proper_bind; [apply proper_ret|]. intros _. apply c_fold_pr. }
  intros [] _. eapply htracks_bind; [apply htracks_force, Lk|intros _; apply c_fold_pr|]. intros x (c0 & c1 & [= <- _]).
  assert (G : forall n o so s a, StoreProofs.orep st so o -> match o with None => 0 | Some t => t_size t end <= k ->
    tracks st
      match so with
      | None => h_ret a
      | Some t1 => h_memo_opt eqA eqK eqV (slr_same eqA eqR) n (t1, s, a) (h_fold_lr_meta eqA eqK eqV eqR k f t1 s a)
      end
      match o with None => c_ret a | Some t1 => c_fold t1 s a end
      (fun st2 cs2 y => match so with None => y = a | Some s1 => hgood (s1, s, a) st2 cs2 y end)).
  { intros n [t1|] [s1|] s0 a0 Ro So; simpl in Ro; try contradiction; [|now apply htracks_ret].
    apply htracks_memo_opt; [intros ? ? Q; now apply slr_same_eq in Q| |now apply IH].
    intros cs y W. exact (W _ Ro). }
  assert (Fin : forall o st2 l' (s1 : option (stree A)) a0 cs2 y, StoreProofs.orep st2 s1 o ->
     match s1 with None => y = a0 | Some s2 => hgood (s2, l', a0) st2 cs2 y end ->
     again match o with None => c_ret a0 | Some t1 => c_fold t1 l' a0 end cs2 y).
  { intros [t1|] st2 l' [s1|] a0 cs2 y Ro H; simpl in Ro; try contradiction; [now apply H|subst]. exists cs2. split; [reflexivity|apply alike_refl]. }
  assert (Br : tracks st
     (hop a1 <- match sl with
                | None => h_ret a
                | Some t1 => h_memo_opt eqA eqK eqV (slr_same eqA eqR) (fork_left (st_name h)) (t1, s, a) (h_fold_lr_meta eqA eqK eqV eqR k f t1 s a)
                end;
      hop a2 <- f a1 d (st_level h) (st_name h);
      match sr with
      | None => h_ret a2
      | Some t2 => h_memo_opt eqA eqK eqV (slr_same eqA eqR) (fork_right (st_name h)) (t2, st_name h, a2)
            (h_fold_lr_meta eqA eqK eqV eqR k f t2 (st_name h) a2)
      end)
     (c_branch lv nm d l r s a)
     (fun st2 cs2 y => (sl <> None \/ sr <> None) -> tree_look st2 h = Some (d, sl, sr) -> True -> hgood (h, s, a) st2 cs2 y)).
  { unfold c_branch. eapply htracks_bind; [apply (G _ l); auto; simpl in Sz; lia| |].
    { intros a1. apply proper_bind; [apply pf_proper|]. intros a2. apply c_opt_pr. }
    intros a1 _. rewrite E1, E2. eapply htracks_bind; [apply f_tracks|intros a2; apply c_opt_pr|]. intros a2 _.
    eapply htracks_weaken; [apply (G _ r); auto; simpl in Sz; lia|].
    intros st2 cs2 y Hr Hm Hl Ne Lk' _ t' Rp'. cbn [fst snd] in *.
    apply rep_eq in Rp'. destruct Rp' as (E1' & E2' & sl' & sr' & Lk2 & Rl' & Rr').
    rewrite Lk' in Lk2. injection Lk2 as Ed <- <-. destruct t' as [lv' nm' d' l' r'].
    cbn [t_level t_name t_peek t_left t_right] in *. subst d'.
    pose proof (Fin _ _ _ _ _ _ _ Rl' Hl) as Gl. pose proof (Fin _ _ _ _ _ _ _ Rr' Hr) as Gr.
    assert (lv' = lv) by congruence. assert (nm' = nm) by congruence. clear E1' E2'. subst lv' nm'.
    rewrite c_fold_branch.
    2:{ destruct l', sl, r', sr; simpl in Rl', Rr'; try contradiction; auto; (left; discriminate) || (right; discriminate) || destruct Ne; congruence. }
    unfold c_branch. eapply again_bind; [|exact Gl|].
    { apply proper_bind; [apply pf_proper|]. intros a3. apply c_opt_pr. }
    eapply again_bind; [apply c_opt_pr|exact Hm|exact Gr]. }
  destruct sl as [sl|], sr as [sr|].
  1-3: rewrite c_fold_branch by (destruct l, r; simpl in Rl, Rr; try contradiction; (left; discriminate) || (right; discriminate));
    eapply htracks_weaken; [exact Br|]; intros st2 cs2 y W L1 L2; apply W; auto; (left; discriminate) || (right; discriminate).
  destruct l, r; simpl in Rl, Rr; try contradiction. cbn [c_fold]. rewrite E1.
  eapply htracks_weaken; [apply f_tracks|]. intros st2 cs2 y Hm Lk' _ t' Rp'. cbn [fst snd] in *.
  apply rep_eq in Rp'. destruct Rp' as (E1' & E2' & sl' & sr' & Lk2 & Rl' & Rr').
  rewrite Lk' in Lk2. injection Lk2 as Ed <- <-. destruct t' as [lv' nm' d' l' r'].
  cbn [t_level t_name t_peek t_left t_right] in *. destruct l', r'; simpl in Rl', Rr'; try contradiction.
  cbn [c_fold]. assert (lv' = lv) as -> by congruence. subst d'. exact Hm.
Qed.
End Fold.

Lemma forall2_through {X Y Z} (P : X -> Y -> Prop) (Q : Z -> Y -> Prop) (R : X -> Z -> Prop) xs ys zs :
  Forall2 P xs ys -> Forall2 Q zs ys -> (forall x y z, P x y -> Q z y -> R x z) -> Forall2 R xs zs.
Proof. intros H. revert zs. induction H; intros zs F W; inv F; constructor; eauto. Qed.

(** ** unique_elms *)
Section Unique.
Context {E M : Type} {RM : RazMeta E M} (eqD : forall x y : tree_data E M, {x = y} + {x <> y})
  (eqE : forall x y : E, {x = y} + {x <> y}) {Nsp : here}.
Context (my_hash : E -> N) (debug : bool).
Notation keqb := (eqb_of eqE).
Notation rstore := (store (level * list E) (tree_data E M)).
Notation cells := (cells E unit).

Fixpoint c_each (l : list E) (a : sskiplist) : @cm E unit sskiplist :=
  match l with
  | [] => c_ret a
  | e :: r => c_bind (putting keqb my_hash debug StoreModel.path a e tt) (c_each r)
  end.
Definition c_node (a : sskiplist) (d : tree_data E M) (l : level) (n : option name) : @cm E unit sskiplist :=
  match d with
  | Leaf v => c_bind (c_each v a) (fun a1 => c_ret (match n with None => a1 | Some nm => ssk_archive a1 nm end))
  | _ => c_ret a
  end.
Lemma c_each_proper l : forall a, proper (c_each l a).
Proof. induction l as [|e l IH]; intros a; cbn [c_each]; [apply proper_ret|]. apply proper_bind; [apply proper_putting|exact IH]. Qed.
Lemma c_node_proper a d l n : proper (c_node a d l n).
Proof. destruct d; try apply proper_ret. apply proper_bind; [apply c_each_proper|]. intros a1. apply proper_ret. Qed.

Notation tracks := (htracks eqD eqE eq_unit (hgood c_node)).
Lemma again_ret (a : sskiplist) (cs : cells) : again (c_ret a) cs a.
Proof. exists cs. split; [reflexivity|apply alike_refl]. Qed.
Lemma each_tracks (st : rstore) l : forall a,
  tracks st (h_each (fun a e => h_put keqb my_hash debug StoreModel.path a e tt) l a) (c_each l a) (fun _ cs2 y => again (c_each l a) cs2 y).
Proof.
  induction l as [|e l IH]; intros a; cbn [h_each c_each]; [apply htracks_ret; intros; apply again_ret|].
  eapply htracks_bind; [apply put_tracks|apply c_each_proper|]. intros a1 _. eapply htracks_weaken; [apply IH|].
  intros st2 cs2 y H2 H1. eapply again_bind; [apply c_each_proper|exact H1|exact H2].
Qed.
Lemma node_tracks (st : rstore) a d l n :
  tracks st (h_unique_node eqE my_hash debug a d l n) (c_node a d l n) (fun _ cs2 y => again (c_node a d l n) cs2 y).
Proof.
  unfold h_unique_node, c_node. destruct d as [|v|]; try (apply htracks_ret; intros; apply again_ret).
  eapply htracks_bind; [apply each_tracks|intros a1; apply proper_ret|]. intros a1 _. apply htracks_ret.
  intros st2 cs2 H. eapply again_bind; [apply proper_ret|exact H|apply again_ret].
Qed.

(** The plain fold is that of [unique_elms_store]. *)
Definition swapped (x : res (sskiplist * cells)) : res (cells * sskiplist) := do ' (a, c) <- x; Ok (c, a).
Notation us_node := (lr_archive_node (us_put keqb my_hash debug StoreModel.path) us_archive (fun a _ => a)).
Lemma each_same v : forall x : res (sskiplist * cells),
  fold_left (us_put keqb my_hash debug StoreModel.path) v (swapped x) = swapped (do ' (a, c) <- x; c_each v a c).
Proof.
  induction v as [|e v IH]; intros x; cbn [fold_left c_each].
  - destruct x as [[a c]| |]; reflexivity.
  - assert (Ex : us_put keqb my_hash debug StoreModel.path (swapped x) e = swapped (do ' (a, c) <- x; putting keqb my_hash debug StoreModel.path a e tt c)).
    { destruct x as [[a c]| |]; try reflexivity. cbn [swapped bind us_put]. unfold putting.
      destruct (ssk_put keqb my_hash debug StoreModel.path c a e tt) as [[c' a']| |]; reflexivity. }
    rewrite Ex, IH. f_equal. destruct x as [[a c]| |]; try reflexivity.
Qed.
Lemma node_same (x : res (sskiplist * cells)) d l n : us_node (swapped x) d l n = swapped (do ' (a, c) <- x; c_node a d l n c).
Proof.
  unfold lr_archive_node, c_node. destruct d as [|v|]; try (destruct x as [[a c]| |]; reflexivity).
  rewrite each_same. destruct x as [[a c]| |]; cbn [bind]; [|destruct n; reflexivity..]. unfold c_bind.
  destruct (c_each v a c) as [[a1 c1]| |]; cbn [bind swapped us_archive]; destruct n; reflexivity.
Qed.
Lemma fold_same k : forall (t : tree (tree_data E M)) s (x : res (sskiplist * cells)), t_size t <= k ->
  t_fold_lr_meta us_node t s (swapped x) = swapped (do ' (a, c) <- x; c_fold c_node t s a c).
Proof.
  induction k as [|k IH]; intros [lv nm d l r] s x Sz; [simpl in Sz; lia|].
  assert (Go : forall o s x, match o with None => 0 | Some t => t_size t end <= k ->
    match o with None => swapped x | Some t1 => t_fold_lr_meta us_node t1 s (swapped x) end =
    swapped (do ' (a, c) <- x; match o with None => c_ret a | Some t1 => c_fold c_node t1 s a end c)).
  { intros [t1|] s0 x0 H; [now apply IH|]. destruct x0 as [[a c]| |]; reflexivity. }
  simpl in Sz.
  assert (Br : (let a2 := us_node match l with None => swapped x | Some t1 => t_fold_lr_meta us_node t1 s (swapped x) end d lv nm in
      match r with None => a2 | Some t2 => t_fold_lr_meta us_node t2 nm a2 end) =
    swapped (do ' (a, c) <- x; c_branch c_node lv nm d l r s a c)).
  { cbv zeta. rewrite Go, node_same, Go by lia. f_equal. destruct x as [[a c]| |]; cbn [bind]; [|reflexivity..]. unfold c_branch, c_bind.
    destruct (match l with None => c_ret a | Some t1 => c_fold c_node t1 s a end c) as [[a1 c1]| |]; reflexivity. }
  destruct l as [l|], r as [r|]; try exact Br. cbn [t_fold_lr_meta c_fold]. apply node_same.
Qed.

Lemma unique_runs pathlen (ts : list (raz_tree E M)) :
  ev (fun k => forall (xs : list (rstore * cells * sraz_tree E M)) (pure : list (cells * sskiplist)),
  Forall2 (fun c t => tree_reads (fst (fst c)) (snd c) t) xs ts ->
  Forall2 (fun ct y => unique_elms_store keqb my_hash debug pathlen StoreModel.path (snd (fst (fst ct))) (snd ct) = Ok y) (combine xs ts) pure ->
  forall tab, hsound (T := level * list E) eqD eqE eq_unit (hgood c_node) tab -> exists ys tab' lgs,
    h_runs (unique_elms_inc eqD eqE my_hash debug k pathlen) xs tab = Ok (ys, tab', lgs) /\
    Forall2 (fun y y' => snd y = snd y' /\ alike (fst y) (fst y')) ys pure).
Proof.
  induction ts as [|t ts IH].
  { apply ev_always. intros k xs pure H Hp tab _. inv H. inv Hp. exists [], tab, []. split; [reflexivity|constructor]. }
  apply (ev_imp _ _ (ev_and _ _ IH (ev_le (match rt_tree t with None => 0 | Some tr => t_size tr end)))).
  intros k [K Hk] xs pure H Hp tab S. inversion H as [|[[st cs] h] t0 xs0 ts0 Rd Rds Ex Et]; subst. cbn [combine] in Hp. inv Hp. cbn [fst snd] in *.
  destruct y as [c1 a1]. rename H2 into H1, H4 into H3.
  assert (Tr : tracks st (unique_elms_inc eqD eqE my_hash debug k pathlen h)
    (match rt_tree t with None => c_ret (ssk_archive (ssk_emp pathlen NUnit) NUnit) | Some tr => c_fold c_node tr (Some (NStr "start")) (ssk_archive (ssk_emp pathlen NUnit) NUnit) end)
    (fun _ _ _ => True)).
  { destruct Rd as [_ Rd]. unfold unique_elms_inc. destruct (srt_tree h) as [sh|], (rt_tree t) as [tr|]; try contradiction; [|now apply htracks_ret].
    eapply htracks_weaken; [|intros; exact I]. apply lr_htracks; [apply c_node_proper|apply node_tracks|now apply reads_rep|exact Hk]. }
  assert (Pl : swapped (match rt_tree t with None => c_ret (ssk_archive (ssk_emp pathlen NUnit) NUnit) | Some tr => c_fold c_node tr (Some (NStr "start")) (ssk_archive (ssk_emp pathlen NUnit) NUnit) end cs) = Ok (c1, a1)).
  { rewrite <- H1. unfold unique_elms_store, rt_fold_lr_archive. destruct (rt_tree t) as [tr|]; [|reflexivity].
    symmetry. exact (fold_same (t_size tr) tr (Some (NStr "start")) (Ok (ssk_archive (ssk_emp pathlen NUnit) NUnit, cs)) (le_n _)). }
  specialize (Tr cs tab S). cbn [h_runs].
  set (p := match rt_tree t with None => _ | Some _ => _ end) in *.
  destruct (unique_elms_inc eqD eqE my_hash debug k pathlen h st cs tab) as [[[[[y cs1] tr] tab1] lg]|s|].
  - destruct Tr as ((c2 & E2 & A2) & S1 & _). rewrite E2 in Pl. injection Pl as -> ->. cbn [bind].
    destruct (K _ _ Rds H3 tab1 S1) as (ys & tab2 & lgs & -> & F). cbn [bind]. eexists _, _, _. split; [reflexivity|]. constructor; [|exact F].
    split; [reflexivity|]. cbn [fst]. now apply alike_sym.
  - rewrite Tr in Pl. discriminate.
  - rewrite Tr in Pl. discriminate.
Qed.

Lemma get_alike (c c' : cells) s k : alike c c' -> ssk_get keqb my_hash debug c s k = ssk_get keqb my_hash debug c' s k.
Proof. intros H. unfold ssk_get. now rewrite (find_alike _ _ _ _ _ _ H). Qed.
Lemma eqb_of_spec a b : keqb a b = true <-> a = b.
Proof. unfold eqb_of. destruct (eqE a b); split; congruence. Qed.

Lemma unique_inc free pathlen (ts : list (raz_tree E M)) :
  0 < pathlen -> (debug = true -> pathlen < 64) ->
  Forall (fun t => tree_reached free t /\ NoDup (NUnit :: NStr "start" :: named_marks (contents t))) ts ->
  exists k0, forall k (xs : list (rstore * cells * sraz_tree E M)), k0 <= k ->
  Forall2 (fun c t => tree_reads (fst (fst c)) (snd c) t) xs ts -> exists ys tab lgs,
    h_runs (unique_elms_inc eqD eqE my_hash debug k pathlen) xs no_hentries = Ok (ys, tab, lgs) /\
    Forall2 (fun ct y => exists st', unique_elms_store keqb my_hash debug pathlen StoreModel.path (snd (fst (fst ct))) (snd ct) = Ok (st', snd y) /\
        forall a, fst y a = st' a) (combine xs ts) ys /\
    Forall2 (fun t y => forall e, ssk_get keqb my_hash debug (fst y) (snd y) e =
      Ok (if existsb (keqb e) (elts (contents t)) then Some tt else None)) ts ys.
Proof.
  intros Hp Hd Tr. destruct (unique_runs pathlen ts) as [k0 K0]. exists k0. intros k xs Hk Rd.
  assert (Pu : exists pure, Forall2 (fun ct y => unique_elms_store keqb my_hash debug pathlen StoreModel.path (snd (fst (fst ct))) (snd ct) = Ok y) (combine xs ts) pure /\
    Forall2 (fun t y => forall e, ssk_get keqb my_hash debug (fst y) (snd y) e =
      Ok (if existsb (keqb e) (elts (contents t)) then Some tt else None)) ts pure).
  { clear - Rd Tr Hp Hd. induction Rd as [|[[st cs] h] t xs ts R _ IH]; [exists []; split; constructor|]. inv Tr. destruct H1 as [T N].
    destruct (IH H2) as (pure & P1 & P2).
    destruct (unique_store_ok keqb my_hash debug eqb_of_spec pathlen Hp Hd StoreModel.path free cs t T N) as (st' & s & U & Q).
    exists ((st', s) :: pure). split; constructor; auto. }
  destruct Pu as (pure & P1 & P2).
  destruct (K0 k Hk xs pure Rd P1 no_hentries (no_hentries_sound _ _ _ _)) as (ys & tab & lgs & X & F). exists ys, tab, lgs. split; [exact X|]. split.
  - refine (forall2_through _ _ _ _ _ _ P1 F _). intros ct [c' a'] [c a] U [Q1 Q2]. cbn [fst snd] in *. subst a'. eauto.
  - refine (forall2_through _ _ _ _ _ _ P2 F _). intros t y' y G [Q1 Q2] e. rewrite Q1, (get_alike _ _ _ _ Q2). auto.
Qed.
End Unique.
