(** * Facts behind the theorems about cursors. *)

From Verif Require Import Base BaseFacts LevelTreeModel TreeCursorModel TreeSpec TreeProofs CursorProofs
  CursorScripts.

Section Up.
Context {A : Type} {TU : TreeUpdate A}.
Notation corder := (@corder A).

(** ** up undoes down, for any cursor in level order *)
Lemma down_left_up c c' f : corder c -> f <> ForceDiscard -> down_left_force f c = (true, c') ->
  up c' = Ok (UpRight, c).
Proof.
  intros O Nf H. destruct c as [d lf o rf]. unfold down_left_force in H. simpl in H.
  destruct o as [t|]; [|discriminate].
  assert (c' = Cursor false lf (t_left t) ((d, t) :: rf)) as ->.
  { destruct (t_left t), f; simpl in H; try congruence; injection H as <-; reflexivity. }
  unfold up. rewrite up_to_left_pick. cbn [l_forest r_forest dirty].
  rewrite pick_right_false by exact (co_le _ O). reflexivity.
Qed.
Lemma down_right_up c c' f : corder c -> f <> ForceDiscard -> down_right_force f c = (true, c') ->
  up c' = Ok (UpLeft, c).
Proof.
  intros O Nf H. destruct c as [d lf o rf]. unfold down_right_force in H. simpl in H.
  destruct o as [t|]; [|discriminate].
  assert (c' = Cursor false ((d, t) :: lf) (t_right t) rf) as ->.
  { destruct (t_right t), f; simpl in H; try congruence; injection H as <-; reflexivity. }
  unfold up. rewrite up_to_left_pick. cbn [l_forest r_forest dirty].
  rewrite pick_left_true by exact (co_lt _ O). reflexivity.
Qed.

(** ** order is kept by every operation *)
Lemma corder_down_left_force f c : corder c -> corder (snd (down_left_force f c)).
Proof.
  intros O. destruct c as [d lf o rf]. unfold down_left_force. simpl.
  destruct o as [t|]; [|exact O]. destruct O as [Ot Ol Or Ole Olt]. simpl in *.
  apply conventional_eq in Ot. destruct Ot as (L1 & L2 & C1 & C2).
  assert (X : corder (Cursor true lf (t_left t) rf)).
  { constructor; simpl; auto; destruct (t_left t) as [u|]; simpl in *; auto.
    - unfold hd_le in *. destruct lf as [|[b v] lf]; auto. lia.
    - unfold hd_lt in *. destruct rf as [|[b v] rf]; auto. lia. }
  assert (Y : corder (Cursor false lf (t_left t) ((d, t) :: rf))).
  { constructor; simpl; auto; destruct (t_left t) as [u|]; simpl in *; auto.
    unfold hd_le in *. destruct lf as [|[b v] lf]; auto. lia. }
  assert (Z : corder (Cursor d lf (Some t) rf)).
  { constructor; simpl; auto. apply conventional_eq. auto. }
  revert X Y. destruct (t_left t), f; simpl; auto.
Qed.
Lemma corder_down_right_force f c : corder c -> corder (snd (down_right_force f c)).
Proof.
  intros O. destruct c as [d lf o rf]. unfold down_right_force. simpl.
  destruct o as [t|]; [|exact O]. destruct O as [Ot Ol Or Ole Olt]. simpl in *.
  apply conventional_eq in Ot. destruct Ot as (L1 & L2 & C1 & C2).
  assert (X : corder (Cursor true lf (t_right t) rf)).
  { constructor; simpl; auto; destruct (t_right t) as [u|]; simpl in *; auto.
    - unfold hd_le in *. destruct lf as [|[b v] lf]; auto. lia.
    - unfold hd_lt in *. destruct rf as [|[b v] rf]; auto. lia. }
  assert (Y : corder (Cursor false ((d, t) :: lf) (t_right t) rf)).
  { constructor; simpl; auto; destruct (t_right t) as [u|]; simpl in *; auto.
    unfold hd_lt in *. destruct rf as [|[b v] rf]; auto. lia. }
  assert (Z : corder (Cursor d lf (Some t) rf)).
  { constructor; simpl; auto. apply conventional_eq. auto. }
  revert X Y. destruct (t_right t), f; simpl; auto.
Qed.
Lemma corder_split c l o r : corder c -> c_split c = (l, o, r) -> corder l /\ corder r.
Proof.
  intros O H. destruct c as [d lf t rf]. unfold c_split in H. simpl in H. injection H as <- <- <-.
  destruct O as [Ot Ol Or Ole Olt]. simpl in *.
  destruct t as [t|]; [|split; constructor; simpl; auto].
  apply conventional_eq in Ot. destruct Ot as (L1 & L2 & C1 & C2). unfold left_tree, right_tree. simpl.
  split; constructor; simpl; auto.
  - destruct (t_left t) as [u|]; simpl in *; auto. unfold hd_le in *. destruct lf as [|[b v] lf]; auto. lia.
  - destruct (t_left t) as [u|]; simpl; auto.
  - destruct (t_right t) as [u|]; simpl; auto.
  - destruct (t_right t) as [u|]; simpl in *; auto. unfold hd_lt in *. destruct rf as [|[b v] rf]; auto. lia.
Qed.

(** ** Position inside a tree *)
Lemma inside_corder (t : tree A) c : conventional t -> inside t c -> corder c.
Proof.
  intros C H. induction H as [|c u H IH E|c u H IH E].
  - now apply corder_from.
  - pose proof (corder_down_left_force ForceYes c IH) as X. unfold down_left_force in X. rewrite E in X.
    now destruct (t_left u).
  - pose proof (corder_down_right_force ForceYes c IH) as X. unfold down_right_force in X. rewrite E in X.
    now destruct (t_right u).
Qed.
Lemma inside_down_left (t : tree A) c f : inside t c -> f <> ForceDiscard -> inside t (snd (down_left_force f c)).
Proof.
  intros H Nf. unfold down_left_force. destruct (c_tree c) as [u|] eqn:E; [|exact H].
  pose proof (in_left t c u H E) as X. destruct (t_left u), f; simpl; auto; congruence.
Qed.
Lemma inside_down_right (t : tree A) c f : inside t c -> f <> ForceDiscard -> inside t (snd (down_right_force f c)).
Proof.
  intros H Nf. unfold down_right_force. destruct (c_tree c) as [u|] eqn:E; [|exact H].
  pose proof (in_right t c u H E) as X. destruct (t_right u), f; simpl; auto; congruence.
Qed.
Lemma inside_up (t : tree A) c : conventional t -> inside t c ->
  (c = c_from t /\ up c = Ok (UpFail, c)) \/
  (exists c', up c = Ok (UpRight, c') /\ inside t c' /\ down_left_force ForceYes c' = (true, c) /\
     forest_len c = S (forest_len c')) \/
  (exists c', up c = Ok (UpLeft, c') /\ inside t c' /\ down_right_force ForceYes c' = (true, c) /\
     forest_len c = S (forest_len c')).
Proof.
  intros C H. destruct H as [|c u H E|c u H E].
  - left. split; reflexivity.
  - right. left. exists c. pose proof (inside_corder t c C H) as O.
    assert (D : down_left_force ForceYes c = (true, Cursor false (l_forest c) (t_left u) ((dirty c, u) :: r_forest c))).
    { unfold down_left_force. rewrite E. now destruct (t_left u). }
    split; [exact (down_left_up c _ ForceYes O ltac:(discriminate) D)|]. split; [exact H|]. split; [exact D|].
    unfold forest_len. simpl. lia.
  - right. right. exists c. pose proof (inside_corder t c C H) as O.
    assert (D : down_right_force ForceYes c = (true, Cursor false ((dirty c, u) :: l_forest c) (t_right u) (r_forest c))).
    { unfold down_right_force. rewrite E. now destruct (t_right u). }
    split; [exact (down_right_up c _ ForceYes O ltac:(discriminate) D)|]. split; [exact H|]. split; [exact D|].
    unfold forest_len. simpl. lia.
Qed.
Lemma inside_moves (t : tree A) : conventional t -> forall ms c, inside t c -> exists c', moves c ms = Ok c' /\ inside t c'.
Proof.
  intros C ms. induction ms as [|m ms IH]; intros c H; simpl; [eauto|].
  destruct m; cbn [move_step bind].
  - apply IH. apply inside_down_left; [exact H|discriminate].
  - apply IH. apply inside_down_right; [exact H|discriminate].
  - apply IH. apply inside_down_left; [exact H|discriminate].
  - apply IH. apply inside_down_right; [exact H|discriminate].
  - destruct (inside_up t c C H) as [(-> & U)|[(c' & U & H' & _)|(c' & U & H' & _)]]; rewrite U; cbn [bind]; auto.
Qed.
Lemma inside_up_all (t : tree A) c : conventional t -> inside t c -> up_all c = Ok (c_from t).
Proof.
  intros C H. unfold up_all.
  assert (X : forall n c, forest_len c < n -> inside t c ->
    loop n (fun c => do ' (u, c') <- up c; Ok (if up_failed u then inr c' else inl c')) c = Ok (c_from t)).
  { intros n. induction n as [|n IH]; intros c0 Hn Hi; [lia|]. cbn [loop].
    destruct (inside_up t c0 C Hi) as [(-> & U)|[(c' & U & H' & _ & L)|(c' & U & H' & _ & L)]]; rewrite U; cbn [bind].
    - reflexivity.
    - apply IH; [lia|exact H'].
    - apply IH; [lia|exact H']. }
  apply X; [lia|exact H].
Qed.
Theorem moves_keep_tree (t : tree A) ms : conventional t ->
  exists c, moves (c_from t) ms = Ok c /\ whole c = Ok (Some t).
Proof.
  intros C. destruct (inside_moves t C ms _ (in_root t)) as (c & M & H). exists c. split; [exact M|].
  unfold whole. now rewrite (inside_up_all t c C H).
Qed.
End Up.

(** ** Content, for a rebuild that keeps a part of the data *)
Section Content.
Context {A B : Type} {TU : TreeUpdate A} (g : A -> B).
Hypothesis K : keeps g.
Definition gobs (lv : level) (nm : option name) (d : A) : list (level * option name * B) := [(lv, nm, g d)].
Definition WT (lv : level) (nm : option name) (d : A) (l r : option (tree A)) : Prop := True.
Definition RT (lv : level) (nm : option name) (d : A) : Prop := True.
Definition AT (o : option (tree A)) : Prop := True.
Definition IT (lv : level) : Prop := True.
Notation cwf := (cwf WT RT AT).
Notation cobs := (cobs gobs).
Notation tobs := (tobs gobs).

Lemma all_twf t : twf WT t.
Proof.
  induction t as [lv nm d l r Hl Hr] using tree_induction. simpl. split; [exact I|].
  split; [destruct l; auto|destruct r; auto].
Qed.
Lemma all_otwf o : otwf WT o.
Proof. destruct o; simpl; auto. apply all_twf. Qed.
Lemma reb_ok : forall lv nm d l r,
  RT lv nm d -> otwf WT l -> AT l -> otwf WT r -> AT r ->
  exists d', rebuild (peek_op l) d lv nm (peek_op r) = Ok d' /\ WT lv nm d' l r /\
    gobs lv nm d' = gobs lv nm d.
Proof.
  intros lv nm d l r _ _ _ _ _. destruct (K (peek_op l) d lv nm (peek_op r)) as (d' & E & G).
  exists d'. split; [exact E|]. split; [exact I|]. unfold gobs. now rewrite G.
Qed.
Lemma inner_ok : forall lv nm d l r, WT lv nm d l r -> IT lv -> RT lv nm d /\ AT l /\ AT r.
Proof. repeat split. Qed.
Lemma weak_ok : forall lv nm d, RT lv nm d -> RT lv nm d.
Proof. auto. Qed.
Lemma some_ok : forall t : tree A, AT (Some t).
Proof. intros; exact I. Qed.

Lemma tobs_nodes o : tobs o = nodes g o.
Proof.
  unfold CursorProofs.tobs, nodes. induction (oinorder o) as [|[[lv nm] d] l IH]; simpl; auto. now rewrite IH.
Qed.

Lemma whole_spec c : cwf c ->
  exists o, whole c = Ok o /\ nodes g o = cobs c /\ (corder c -> oconventional o).
Proof.
  intros H. destruct (up_all_spec gobs WT RT RT AT reb_ok weak_ok some_ok c H)
    as (c' & U & _ & L & R & Ob & O & _).
  exists (at_tree c'). unfold whole. rewrite U. split; [reflexivity|]. split.
  - rewrite <- tobs_nodes, <- Ob. unfold cobs. rewrite L, R. simpl. now rewrite app_nil_r.
  - intros Co. exact (co_tree _ (O Co)).
Qed.

Lemma cwf_free c : linked WT (dirty c) (l_forest c) (c_tree c) (r_forest c) -> cwf c.
Proof.
  intros L. constructor; auto; try exact I; try apply all_otwf.
  - apply Forall_forall. intros p _. split; [exact I|]. split; [apply all_otwf|exact I].
  - apply Forall_forall. intros p _. split; [exact I|]. split; [apply all_otwf|exact I].
Qed.
Lemma cwf_dirty lf o rf : cwf (Cursor true lf o rf).
Proof. apply cwf_free. constructor. Qed.

Lemma down_left_wf c f : cwf c -> corder c -> f <> ForceDiscard ->
  cwf (snd (down_left_force f c)) /\ cobs (snd (down_left_force f c)) = cobs c.
Proof.
  intros H O Nf. destruct (c_tree c) as [t|] eqn:T.
  2:{ unfold down_left_force. rewrite T. auto. }
  assert (D : f = ForceNo /\ t_left t = None \/ (f = ForceNo -> t_left t <> None)).
  { destruct f; [destruct (t_left t); [right|left]|right|right]; auto; discriminate. }
  destruct D as [[-> N]|D].
  - unfold down_left_force. rewrite T, N. auto.
  - destruct (down_left_cwf gobs WT RT AT IT inner_ok c t f H T Nf D I) as (E & W & Ob & _).
    { pose proof (co_le _ O) as X. now rewrite T in X. }
    rewrite E. auto.
Qed.
Lemma down_right_wf c f : cwf c -> corder c -> f <> ForceDiscard ->
  cwf (snd (down_right_force f c)) /\ cobs (snd (down_right_force f c)) = cobs c.
Proof.
  intros H O Nf. destruct (c_tree c) as [t|] eqn:T.
  2:{ unfold down_right_force. rewrite T. auto. }
  assert (D : f = ForceNo /\ t_right t = None \/ (f = ForceNo -> t_right t <> None)).
  { destruct f; [destruct (t_right t); [right|left]|right|right]; auto; discriminate. }
  destruct D as [[-> N]|D].
  - unfold down_right_force. rewrite T, N. auto.
  - destruct (down_right_cwf gobs WT RT AT IT inner_ok c t f H T Nf D I) as (E & W & Ob & _).
    { pose proof (co_lt _ O) as X. now rewrite T in X. }
    rewrite E. auto.
Qed.
Lemma up_wf c : cwf c -> exists u c', up c = Ok (u, c') /\ cwf c' /\ cobs c' = cobs c /\ (corder c -> corder c').
Proof.
  intros H. destruct (pick (l_forest c) (r_forest c)) as [b|] eqn:P.
  - destruct (up_step gobs WT RT RT AT reb_ok weak_ok some_ok c b H P) as (c' & U & W & Ob & O & _). eauto 6.
  - destruct (pick_none _ _ P) as [L R]. rewrite (up_fail c L R). eauto 6.
Qed.
Lemma move_wf c m : cwf c -> corder c ->
  exists c', move_step c m = Ok c' /\ cwf c' /\ corder c' /\ cobs c' = cobs c.
Proof.
  intros H O. destruct m; cbn [move_step].
  - destruct (down_left_wf c ForceNo H O) as [W Ob]; [discriminate|]. eexists. split; [reflexivity|].
    split; [exact W|]. split; [|exact Ob]. now apply corder_down_left_force.
  - destruct (down_right_wf c ForceNo H O) as [W Ob]; [discriminate|]. eexists. split; [reflexivity|].
    split; [exact W|]. split; [|exact Ob]. now apply corder_down_right_force.
  - destruct (down_left_wf c ForceYes H O) as [W Ob]; [discriminate|]. eexists. split; [reflexivity|].
    split; [exact W|]. split; [|exact Ob]. now apply corder_down_left_force.
  - destruct (down_right_wf c ForceYes H O) as [W Ob]; [discriminate|]. eexists. split; [reflexivity|].
    split; [exact W|]. split; [|exact Ob]. now apply corder_down_right_force.
  - destruct (up_wf c H) as (u & c' & U & W & Ob & Oc). rewrite U. simpl. eauto 6.
Qed.

Lemma discard_left_eq (c : cursor A) t : c_tree c = Some t ->
  down_left_force ForceDiscard c = (true, Cursor true (l_forest c) (t_left t) (r_forest c)).
Proof. intros T. unfold down_left_force. rewrite T. now destruct (t_left t). Qed.
Lemma discard_right_eq (c : cursor A) t : c_tree c = Some t ->
  down_right_force ForceDiscard c = (true, Cursor true (l_forest c) (t_right t) (r_forest c)).
Proof. intros T. unfold down_right_force. rewrite T. now destruct (t_right t). Qed.

Lemma reached_wf (c : cursor A) : cursor_reached c -> cwf c /\ corder c.
Proof.
  induction 1 as [|t C|c m c' H [IH IO] M|c H [IH IO]|c H [IH IO]|c l o r H [IH IO] S|c l o r H [IH IO] S
                 |l lev nm d r c Hl [Wl Ol] Hr [Wr Or] J].
  - split; [apply cwf_free; constructor|]. constructor; simpl; auto.
  - split; [apply cwf_from; [apply some_ok|apply all_twf]|now apply corder_from].
  - destruct (move_wf c m IH IO) as (c2 & M' & W & O & _). rewrite M in M'. injection M' as <-. auto.
  - split; [|now apply corder_down_left_force]. destruct (c_tree c) as [t|] eqn:T.
    + rewrite (discard_left_eq c t T). apply cwf_dirty.
    + unfold down_left_force. now rewrite T.
  - split; [|now apply corder_down_right_force]. destruct (c_tree c) as [t|] eqn:T.
    + rewrite (discard_right_eq c t T). apply cwf_dirty.
    + unfold down_right_force. now rewrite T.
  - split; [|exact (proj1 (corder_split _ _ _ _ IO S))]. unfold c_split in S. injection S as <- _ _. apply cwf_dirty.
  - split; [|exact (proj2 (corder_split _ _ _ _ IO S))]. unfold c_split in S. injection S as _ _ <-. apply cwf_dirty.
  - destruct (c_join_spec gobs WT RT RT AT IT reb_ok inner_ok weak_ok some_ok l lev nm d r) as (c' & J' & W & _ & _ & O & _);
      auto; try (intros; exact I). rewrite J in J'. injection J' as <-. auto.
Qed.

Theorem reached_whole (c : cursor A) : cursor_reached c ->
  exists o, whole c = Ok o /\ nodes g o = cobs c /\ oconventional o.
Proof.
  intros H. destruct (reached_wf c H) as [W O]. destruct (whole_spec c W) as (o & E & N & C). eauto.
Qed.

Theorem reached_move (c : cursor A) m : cursor_reached c ->
  exists c' o o', move_step c m = Ok c' /\ whole c = Ok o /\ whole c' = Ok o' /\ nodes g o' = nodes g o.
Proof.
  intros H. destruct (reached_wf c H) as [W O]. destruct (move_wf c m W O) as (c' & M & W' & _ & Ob).
  destruct (whole_spec c W) as (o & E & N & _). destruct (whole_spec c' W') as (o' & E' & N' & _).
  exists c', o, o'. split; [exact M|]. split; [exact E|]. split; [exact E'|]. congruence.
Qed.

Theorem reached_join l lev nm d r : cursor_reached l -> cursor_reached r ->
  exists c lo ro o, c_join l lev nm d r = Ok c /\ whole l = Ok lo /\ whole r = Ok ro /\ whole c = Ok o /\
    nodes g o = nodes g lo ++ (lev, nm, g d) :: nodes g ro /\ oconventional o.
Proof.
  intros Hl Hr. destruct (reached_wf l Hl) as [Wl Ol]. destruct (reached_wf r Hr) as [Wr Or].
  destruct (c_join_spec gobs WT RT RT AT IT reb_ok inner_ok weak_ok some_ok l lev nm d r)
    as (c & J & W & _ & Ob & O & _); auto; try (intros; exact I).
  destruct (whole_spec l Wl) as (lo & El & Nl & _). destruct (whole_spec r Wr) as (ro & Er & Nr & _).
  destruct (whole_spec c W) as (o & E & N & C).
  exists c, lo, ro, o. split; [exact J|]. split; [exact El|]. split; [exact Er|]. split; [exact E|].
  split; [|auto]. rewrite N, Nl, Nr, Ob. reflexivity.
Qed.

Theorem reached_split (c : cursor A) l u r : cursor_reached c -> c_split c = (l, Some u, r) ->
  exists o lo ro, whole c = Ok o /\ whole l = Ok lo /\ whole r = Ok ro /\
    nodes g o = nodes g lo ++ (t_level u, t_name u, g (t_peek u)) :: nodes g ro /\
    oconventional o /\ oconventional lo /\ oconventional ro.
Proof.
  intros H S. destruct (reached_wf c H) as [W O]. destruct (whole_spec c W) as (o & E & N & C).
  destruct (reached_whole l (CR_split_left c l _ r H S)) as (lo & El & Nl & Cl).
  destruct (reached_whole r (CR_split_right c l _ r H S)) as (ro & Er & Nr & Cr).
  exists o, lo, ro. split; [exact E|]. split; [exact El|]. split; [exact Er|]. split; [|auto].
  rewrite N, Nl, Nr. unfold c_split in S. injection S as <- T <-. unfold CursorProofs.cobs. cbn [l_forest r_forest c_tree].
  unfold left_tree, right_tree. rewrite T, tobs_eq. simpl. rewrite app_nil_r, <- !app_assoc. reflexivity.
Qed.

Theorem reached_split_empty (c : cursor A) l r : cursor_reached c -> c_split c = (l, None, r) ->
  exists o lo ro, whole c = Ok o /\ whole l = Ok lo /\ whole r = Ok ro /\
    nodes g o = nodes g lo ++ nodes g ro.
Proof.
  intros H S. destruct (reached_wf c H) as [W O]. destruct (whole_spec c W) as (o & E & N & C).
  destruct (reached_whole l (CR_split_left c l _ r H S)) as (lo & El & Nl & Cl).
  destruct (reached_whole r (CR_split_right c l _ r H S)) as (ro & Er & Nr & Cr).
  exists o, lo, ro. split; [exact E|]. split; [exact El|]. split; [exact Er|].
  rewrite N, Nl, Nr. unfold c_split in S. injection S as <- T <-. unfold CursorProofs.cobs. cbn [l_forest r_forest c_tree].
  unfold left_tree, right_tree. rewrite T. simpl. now rewrite app_nil_r.
Qed.

Lemma inorder_relabel (t : tree A) : inorder (relabel g t) = nodes g (Some t).
Proof.
  induction t as [lv nm d l r Hl Hr] using tree_induction. unfold nodes. simpl.
  rewrite map_app. cbn [map]. f_equal; [destruct l; auto|]. f_equal. destruct r; auto.
Qed.
Lemma relabel_level (t : tree A) : t_level (relabel g t) = t_level t.
Proof. now destruct t. Qed.
Lemma conventional_relabel (t : tree A) : conventional t -> conventional (relabel g t).
Proof.
  induction t as [lv nm d l r Hl Hr] using tree_induction. simpl. intros (A1 & A2 & A3 & A4).
  split; [destruct l; simpl in *; rewrite ?relabel_level; auto|].
  split; [destruct r; simpl in *; rewrite ?relabel_level; auto|].
  split; [destruct l; simpl in *; auto|destruct r; simpl in *; auto].
Qed.
Lemma nodes_unique (o o' : option (tree A)) : oconventional o -> oconventional o' -> nodes g o = nodes g o' ->
  option_map (relabel g) o = option_map (relabel g) o'.
Proof.
  intros C C' N. destruct o as [t|], o' as [t'|]; simpl in *; auto.
  - f_equal. apply conventional_unique; try (apply conventional_relabel; assumption).
    now rewrite !inorder_relabel.
  - exfalso. unfold nodes in N. apply (inorder_nonempty t). simpl in N. now destruct (inorder t).
  - exfalso. unfold nodes in N. apply (inorder_nonempty t'). simpl in N. now destruct (inorder t').
Qed.

Theorem reached_split_join (c : cursor A) l u r : cursor_reached c -> c_split c = (l, Some u, r) ->
  exists c' o o', c_join l (t_level u) (t_name u) (t_peek u) r = Ok c' /\
    whole c = Ok o /\ whole c' = Ok o' /\ option_map (relabel g) o' = option_map (relabel g) o.
Proof.
  intros H S. destruct (reached_split c l u r H S) as (o & lo & ro & E & El & Er & N & C & _).
  destruct (reached_join l (t_level u) (t_name u) (t_peek u) r (CR_split_left c l _ r H S) (CR_split_right c l _ r H S))
    as (c' & lo' & ro' & o' & J & El' & Er' & E' & N' & C').
  exists c', o, o'. split; [exact J|]. split; [exact E|]. split; [exact E'|].
  apply nodes_unique; auto. rewrite El in El'. injection El' as <-. rewrite Er in Er'. injection Er' as <-. congruence.
Qed.

(** ** Discarding moves *)
Theorem reached_discard (c : cursor A) t : cursor_reached c -> c_tree c = Some t ->
  exists c1 c2 o o1 o2 pre post,
    down_left_force ForceDiscard c = (true, c1) /\ down_right_force ForceDiscard c = (true, c2) /\
    whole c = Ok o /\ whole c1 = Ok o1 /\ whole c2 = Ok o2 /\
    nodes g o = pre ++ (nodes g (t_left t) ++ (t_level t, t_name t, g (t_peek t)) :: nodes g (t_right t)) ++ post /\
    nodes g o1 = pre ++ nodes g (t_left t) ++ post /\
    nodes g o2 = pre ++ nodes g (t_right t) ++ post /\
    c_tree c1 = t_left t /\ c_tree c2 = t_right t.
Proof.
  intros H T. pose proof (discard_left_eq c t T) as D1. pose proof (discard_right_eq c t T) as D2.
  destruct (reached_whole c H) as (o & E & N & _).
  destruct (whole_spec _ (cwf_dirty (l_forest c) (t_left t) (r_forest c))) as (o1 & E1 & N1 & _).
  destruct (whole_spec _ (cwf_dirty (l_forest c) (t_right t) (r_forest c))) as (o2 & E2 & N2 & _).
  do 5 eexists. exists (lf_obs gobs (l_forest c)), (rf_obs gobs (r_forest c)).
  split; [exact D1|]. split; [exact D2|]. split; [exact E|]. split; [exact E1|]. split; [exact E2|].
  rewrite N, N1, N2. unfold CursorProofs.cobs. cbn [l_forest r_forest c_tree]. rewrite T, tobs_eq, !tobs_nodes.
  split; [reflexivity|]. split; [reflexivity|]. split; [reflexivity|]. split; reflexivity.
Qed.

(** ** The right iterator *)
Definition rest (c : cursor A) : list B :=
  match c_tree c with
  | None => []
  | Some t => g (t_peek t) :: map snd (nodes g (t_right t)) ++ map snd (rf_obs gobs (r_forest c))
  end.

Lemma nodes_node (t : tree A) : 
  nodes g (Some t) = nodes g (t_left t) ++ (t_level t, t_name t, g (t_peek t)) :: nodes g (t_right t).
Proof. unfold nodes. simpl. rewrite inorder_eq, map_app. reflexivity. Qed.

Lemma down_left_all_rest : forall n (c : cursor A) t, c_tree c = Some t -> t_size t < n ->
  exists c', loop n (fun c => match down_left c with (true, c') => Ok (inl c') | (false, c') => Ok (inr c') end) c = Ok c' /\
    rest c' = map snd (nodes g (Some t)) ++ map snd (rf_obs gobs (r_forest c)).
Proof.
  intros n. induction n as [|n IH]; intros c t T Hs; [lia|]. cbn [loop].
  unfold down_left, down_left_force at 1. rewrite T. destruct (t_left t) as [u|] eqn:L.
  - pose proof (t_size_left t) as S. rewrite L in S. simpl in S.
    destruct (IH (Cursor false (l_forest c) (Some u) ((dirty c, t) :: r_forest c)) u eq_refl) as (c' & E & R); [lia|].
    exists c'. split; [exact E|]. rewrite R. rewrite (nodes_node t), L, !map_app. simpl.
    rewrite <- !app_assoc. simpl. rewrite map_app, tobs_nodes. reflexivity.
  - exists c. split; [reflexivity|]. unfold rest. rewrite T, nodes_node, L. reflexivity.
Qed.

Lemma up_loop_rest : forall n (c : cursor A), forest_len c < n ->
  exists c', loop n (fun c => do ' (u, c') <- up_discard c;
                    Ok (match u with UpLeft => inl c' | UpRight => inr c' | UpFail => inr c_new end)) c = Ok c' /\
    rest c' = map snd (rf_obs gobs (r_forest c)).
Proof.
  intros n. induction n as [|n IH]; intros c Hs; [lia|]. cbn [loop].
  unfold up_discard. rewrite up_to_left_pick. destruct (pick (l_forest c) (r_forest c)) as [[|]|] eqn:P.
  - destruct (pick_true _ _ P) as (d & t & lf & L & _). rewrite L. cbn [bind].
    destruct (IH (Cursor d lf (Some t) (r_forest c))) as (c' & E & R).
    { unfold forest_len in *. rewrite L in Hs. simpl in *. lia. }
    exists c'. split; [exact E|]. exact R.
  - destruct (pick_false _ _ P) as (d & t & rf & R & _). rewrite R. cbn [bind]. eexists. split; [reflexivity|].
    unfold rest. simpl. rewrite map_app, tobs_nodes. reflexivity.
  - destruct (pick_none _ _ P) as [L R]. cbn [bind]. eexists. split; [reflexivity|]. now rewrite R.
Qed.

Lemma iter_next_rest (c : cursor A) : (c_tree c = None -> r_forest c = []) ->
  exists x c', iter_r_next c = Ok (x, c') /\ option_map g x = hd_error (rest c) /\ rest c' = tl (rest c) /\
    (c_tree c' = None -> r_forest c' = []).
Proof.
  intros Em. unfold iter_r_next.
  assert (Hx : option_map g (c_peek c) = hd_error (rest c)).
  { unfold c_peek, peek_op, rest. now destruct (c_tree c). }
  assert (Hn : forall c' : cursor A, (c_tree c' = None -> c' = c_new) -> c_tree c' = None -> r_forest c' = []).
  { intros c' X Y. now rewrite (X Y). }
  unfold down_right, down_right_force. destruct (c_tree c) as [t|] eqn:T.
  - destruct (t_right t) as [u|] eqn:Rt.
    + unfold down_left_all. cbn [c_tree ot_size].
      destruct (down_left_all_rest (S (t_size u)) (Cursor false ((dirty c, t) :: l_forest c) (Some u) (r_forest c)) u eq_refl)
        as (c' & E & R); [lia|]. rewrite E. cbn [bind]. do 2 eexists. split; [reflexivity|]. split; [exact Hx|].
      split; [rewrite R; unfold rest; rewrite T, Rt; reflexivity|].
      intros N. unfold rest in R. rewrite N in R. exfalso. rewrite nodes_node, map_app in R.
      destruct (map snd (nodes g (t_left u))); discriminate.
    + destruct (up_loop_rest (S (forest_len c)) c) as (c' & E & R); [lia|]. rewrite E. cbn [bind].
      do 2 eexists. split; [reflexivity|]. split; [exact Hx|]. split; [rewrite R; unfold rest; rewrite T, Rt; reflexivity|].
      intros N. unfold rest in R. rewrite N in R.
      assert (Z : forall n c0, loop n (fun c => do ' (u, c') <- up_discard c;
                    Ok (match u with UpLeft => inl c' | UpRight => inr c' | UpFail => inr c_new end)) c0 = Ok c' -> r_forest c' = []).
      { intros n. induction n as [|n IH]; intros c0 L; cbn [loop] in L; [discriminate|].
        unfold up_discard in L. destruct (up_to_left c0) as [[|]|].
        - destruct (l_forest c0) as [|[d v] lf]; cbn [bind] in L; [discriminate|]. eauto.
        - destruct (r_forest c0) as [|[d v] rf]; cbn [bind] in L; [discriminate|]. injection L as <-. discriminate.
        - cbn [bind] in L. injection L as <-. reflexivity. }
      exact (Z _ _ E).
  - destruct (up_loop_rest (S (forest_len c)) c) as (c' & E & R); [lia|]. rewrite E. cbn [bind].
    do 2 eexists. split; [reflexivity|]. split; [exact Hx|]. rewrite (Em eq_refl) in R.
    split; [rewrite R; unfold rest; rewrite T; reflexivity|].
    intros N.
    assert (Z : forall n c0, r_forest c0 = [] -> loop n (fun c => do ' (u, c') <- up_discard c;
                    Ok (match u with UpLeft => inl c' | UpRight => inr c' | UpFail => inr c_new end)) c0 = Ok c' -> r_forest c' = []).
    { intros n. induction n as [|n IH]; intros c0 R0 L; cbn [loop] in L; [discriminate|].
      unfold up_discard in L. destruct (up_to_left c0) as [[|]|].
      - destruct (l_forest c0) as [|[d v] lf]; cbn [bind] in L; [discriminate|]. eapply IH; [|exact L]. exact R0.
      - rewrite R0 in L. cbn [bind] in L. discriminate.
      - cbn [bind] in L. injection L as <-. reflexivity. }
    exact (Z _ _ (Em eq_refl) E).
Qed.
End Content.

Section Iter.
Context {A : Type} {TU : TreeUpdate A}.
Notation raw := (fun x : A => x).
Notation rest_raw := (rest raw).

Lemma iter_take_rest : forall n (c : cursor A), (c_tree c = None -> r_forest c = []) ->
  iter_r_take n c = Ok (firstn n (map Some (rest_raw c) ++ repeat None n)).
Proof.
  intros n. induction n as [|n IH]; intros c Em; [reflexivity|]. cbn [iter_r_take].
  destruct (iter_next_rest raw c Em) as (x & c' & E & X & R & Em'). rewrite E. cbn [bind].
  rewrite (IH c' Em'), R. cbn [bind]. assert (x = hd_error (rest_raw c)) as -> by (now destruct x).
  destruct (rest_raw c) as [|y l]; simpl.
  - reflexivity.
  - f_equal. f_equal. change (None :: repeat None n) with (repeat (@None A) (S n)).
    replace (S n) with (n + 1) by lia. rewrite repeat_app, app_assoc, (firstn_app n (_ ++ _)).
    rewrite app_length, repeat_length. replace (n - _) with 0 by lia. simpl. now rewrite app_nil_r.
Qed.

Lemma nodes_size g (o : option (tree A)) : length (nodes (B := A) g o) = ot_size o.
Proof.
  destruct o as [t|]; [|reflexivity]. unfold nodes. rewrite map_length. simpl.
  induction t as [lv nm d l r Hl Hr] using tree_induction. rewrite inorder_Node, app_length. simpl.
  destruct l, r; simpl in *; rewrite ?Hl, ?Hr; simpl; lia.
Qed.
Lemma rf_obs_size (f : list (bool * tree A)) :
  length (rf_obs (gobs raw) f) <= list_sum (map (fun p => t_size (snd p)) f).
Proof.
  induction f as [|[b t] f IH]; [reflexivity|]. cbn [rf_obs map list_sum fold_right snd]. rewrite !app_length.
  rewrite tobs_nodes, nodes_size. pose proof (t_size_right t). simpl length.
  change (fold_right plus 0) with list_sum. lia.
Qed.
Lemma rest_size (c : cursor A) : length (rest_raw c) < iter_fuel c.
Proof.
  unfold rest, iter_fuel. destruct (c_tree c) as [t|]; [|simpl; lia]. simpl.
  rewrite app_length, !map_length, nodes_size. pose proof (t_size_right t). pose proof (rf_obs_size (r_forest c)).
  lia.
Qed.

Lemma fold_out_rest {R} (c : cursor A) (init : R) (bin : R -> A -> R) : (c_tree c = None -> r_forest c = []) ->
  fold_out c init bin = Ok (fold_left bin (rest_raw c) init).
Proof.
  intros Em. unfold fold_out. pose proof (rest_size c) as L. revert L.
  generalize (iter_fuel c) as n. intros n. revert c init Em.
  induction n as [|n IH]; intros c init Em L; [lia|]. cbn [loop].
  destruct (iter_next_rest raw c Em) as (x & c' & E & X & Rr & Em'). rewrite E. cbn [bind].
  assert (x = hd_error (rest_raw c)) as -> by (now destruct x).
  destruct (rest_raw c) as [|y l] eqn:Q; [reflexivity|]. simpl in Rr. cbn [hd_error].
  rewrite IH; [now rewrite Rr|exact Em'|]. rewrite Rr. simpl in L. lia.
Qed.

Lemma map_g_rest {B} (g : A -> B) (c : cursor A) : map g (rest_raw c) = rest g c.
Proof.
  assert (X : forall o : option (tree A), map g (map snd (nodes raw o)) = map snd (nodes g o)).
  { intros o. unfold nodes. rewrite !map_map. apply map_ext. now intros [[? ?] ?]. }
  assert (Y : forall f, map g (map snd (rf_obs (gobs raw) f)) = map snd (rf_obs (gobs g) f)).
  { induction f as [|[b t] f IH]; [reflexivity|]. cbn [rf_obs gobs app]. rewrite !tobs_nodes, !map_cons, !map_app.
    now rewrite X, IH. }
  unfold rest. destruct (c_tree c) as [t|]; [|reflexivity]. cbn [map]. rewrite map_app, X, Y. reflexivity.
Qed.

Lemma into_iters_rest (c : cursor A) : exists l r,
  into_iters c = Ok (l, c_tree c, r) /\ (c_tree r = None -> r_forest r = []) /\
  forall B (g : A -> B), rest g r = map snd (nodes g (right_tree c)) ++ map snd (rf_obs (gobs g) (r_forest c)).
Proof.
  unfold into_iters. cbn [c_tree].
  assert (HL : exists l, match left_tree c with
      | Some _ => down_right_all (Cursor true (l_forest c) (left_tree c) [])
      | None => do ' (_, c') <- up_discard (Cursor true (l_forest c) (left_tree c) []); Ok c' end = Ok l).
  { destruct (left_tree c) as [t|].
    - unfold down_right_all. cbn [c_tree ot_size].
      assert (X : forall n c0 t0, c_tree c0 = Some t0 -> t_size t0 < n -> exists l : cursor A,
        loop n (fun c => match down_right c with (true, c') => Ok (inl c') | (false, c') => Ok (inr c') end) c0 = Ok l).
      { intros n. induction n as [|n IH]; intros c0 t0 T Hs; [lia|]. cbn [loop].
        unfold down_right, down_right_force at 1. rewrite T. destruct (t_right t0) as [u|] eqn:Rt; [|eauto].
        pose proof (t_size_right t0) as S. rewrite Rt in S. simpl in S. eapply IH; [reflexivity|lia]. }
      eapply X; [reflexivity|lia].
    - unfold up_discard, up_to_left. cbn [l_forest r_forest]. destruct (l_forest c) as [|[d t] lf]; simpl; eauto. }
  destruct HL as (l & HL). exists l. rewrite HL. cbn [bind].
  destruct (right_tree c) as [t|].
  - unfold down_left_all. cbn [c_tree ot_size].
    assert (Z : exists r, loop (S (t_size t)) (fun c => match down_left c with (true, c') => Ok (inl c') | (false, c') => Ok (inr c') end)
        (Cursor true [] (Some t) (r_forest c)) = Ok r).
    { destruct (down_left_all_rest raw (S (t_size t)) (Cursor true [] (Some t) (r_forest c)) t eq_refl) as (r & E & _); [lia|]. eauto. }
    destruct Z as (r & E). exists r. rewrite E. cbn [bind]. split; [reflexivity|].
    assert (Q : forall B (g : A -> B), rest g r = map snd (nodes g (Some t)) ++ map snd (rf_obs (gobs g) (r_forest c))).
    { intros B g. destruct (down_left_all_rest g (S (t_size t)) (Cursor true [] (Some t) (r_forest c)) t eq_refl) as (r' & E' & R); [lia|].
      rewrite E in E'. injection E' as <-. exact R. }
    split; [|exact Q]. intros N. specialize (Q A raw). unfold rest in Q. rewrite N in Q. exfalso.
    rewrite nodes_node, map_app in Q. destruct (map snd (nodes raw (t_left t))); discriminate.
  - unfold up_discard, up_to_left. cbn [l_forest r_forest]. destruct (r_forest c) as [|[d t] rf] eqn:Rf; cbn [bind].
    + eexists. split; [reflexivity|]. split; [reflexivity|]. reflexivity.
    + eexists. split; [reflexivity|]. split; [discriminate|]. intros B g. unfold rest. simpl.
      now rewrite map_app, tobs_nodes.
Qed.

Theorem reached_iter {B} (g : A -> B) (c : cursor A) : keeps g -> cursor_reached c ->
  exists l r xs o pre post, into_iters c = Ok (l, c_tree c, r) /\ whole c = Ok o /\
    nodes g o = pre ++ match c_tree c with
                       | Some u => [(t_level u, t_name u, g (t_peek u))]
                       | None => [] end ++ post /\
    (forall u, c_tree c = Some u -> exists q, post = nodes g (t_right u) ++ q) /\
    map g xs = map snd post /\
    (forall n, iter_r_take n r = Ok (firstn n (map Some xs ++ repeat None n))) /\
    forall R (init : R) bin, fold_out r init bin = Ok (fold_left bin xs init).
Proof.
  intros K H. destruct (into_iters_rest c) as (l & r & I & Em & Q).
  destruct (reached_whole g K c H) as (o & E & N & _).
  exists l, r, (rest_raw r), o, (lf_obs (gobs g) (l_forest c) ++ nodes g (left_tree c)),
    (nodes g (right_tree c) ++ rf_obs (gobs g) (r_forest c)).
  split; [exact I|]. split; [exact E|]. split; [|split; [|split; [|split]]].
  - rewrite N. unfold CursorProofs.cobs, left_tree, right_tree. rewrite tobs_nodes. destruct (c_tree c) as [u|].
    + rewrite nodes_node, <- !app_assoc. reflexivity.
    + simpl. now rewrite app_nil_r.
  - intros u T. unfold right_tree. rewrite T. eauto.
  - rewrite map_g_rest, Q, map_app. reflexivity.
  - intros n. now apply iter_take_rest.
  - intros R init bin. now apply fold_out_rest.
Qed.
End Iter.
