(** * How many cells of the store an edit changes. *)

From Verif Require Import Base BaseFacts Spec SpecRaz LevelTreeModel TreeSpec TreeProofs TreeCursorModel RazMetaModel RazModel RazView RazScripts RazSession
  RazReach MemoModel MemoSpec MemoProofs MemoCost MemoRaz MemoHistory StoreModel StoreSpec StoreScripts StoreProofs StoreRaz StoreHistory StoreNs
  IncModel IncSpec IncProofs IncCost StoreFuel CellSpec.

Section Trees.
Context {T A : Type} (eqA : forall x y : A, {x = y} + {x <> y}) (q : list name).
Implicit Types (st : store T A).

Lemma names_tnames (t : tree A) : names t = tnames t.
Proof.
  induction t as [lv nm d l r Hl Hr] using tree_induction. cbn [names tnames]. unfold oroot.
  destruct l, r; simpl in *; congruence.
Qed.
Lemma cells_subtree (t : tree A) : forall s, In s (subtrees t) -> incl (cells q s) (cells q t).
Proof.
  induction t as [lv nm d l r Hl Hr] using tree_induction. intros s H. cbn [subtrees] in H.
  destruct H as [<-|H]; [apply incl_refl|]. rewrite cells_eq. apply in_app_or in H.
  apply incl_appr. destruct H as [H|H]; [apply incl_appl|apply incl_appr].
  - destruct l as [u|]; [|contradiction]. simpl in Hl. now apply Hl.
  - destruct r as [u|]; [|contradiction]. simpl in Hr. now apply Hr.
Qed.
Lemma held_in st cs c : held eqA st cs -> In c cs -> holds eqA st c = true.
Proof. unfold held. rewrite forallb_forall. auto. Qed.
(** A node of both trees has the same cell. *)
Lemma same_cell st st' (t t' : tree A) lv n d l r : held eqA st (cells q t) -> held eqA st' (cells q t') ->
  In (Node lv (Some n) d l r) (subtrees t) -> In (Node lv (Some n) d l r) (subtrees t') -> st' (q, n) = st (q, n).
Proof.
  intros H H' I I'.
  assert (X : forall st t, held eqA st (cells q t) -> In (Node lv (Some n) d l r) (subtrees t) ->
    st (q, n) = Some (CNode d (ohandle q l) (ohandle q r))).
  { clear. intros st t H I. pose proof (held_in st _ ((q, n), (d, ohandle q l, ohandle q r)) H) as Q.
    assert (P : In ((q, n), (d, ohandle q l, ohandle q r)) (cells q t)).
    { apply (cells_subtree t _ I). rewrite cells_eq. now left. }
    apply Q in P. apply holds_eq in P. simpl in P. destruct (st (q, n)) as [[|d' l' r']|]; try discriminate.
    now injection P as -> -> ->. }
  rewrite (X st t H I). exact (X st' t' H' I').
Qed.
(** Of the cells of the new tree only those of new nodes differ. *)
Definition fresh_nodes (t t' : tree A) : list (tree A) :=
  filter (fun s => has_children s && negb (existsb (tree_same eqA s) (subtrees t))) (subtrees t').
Lemma other_cell st st' (t t' : tree A) n : held eqA st (cells q t) -> held eqA st' (cells q t') -> inner_named t' ->
  In n (names t') -> st' (q, n) <> st (q, n) -> In n (flat_map (fun s => names_of (t_name s)) (fresh_nodes t t')).
Proof.
  intros H H' In' Hn D. destruct (name_edge _ n In' Hn) as (l & r & lv & d & I'). apply in_flat_map.
  exists (Node lv (Some n) d (Some l) (Some r)). split; [|now left].
  apply filter_In. split; [exact I'|]. cbn [has_children andb]. apply negb_true_iff.
  destruct (existsb _ _) eqn:Ex; [|reflexivity]. exfalso. apply existsb_exists in Ex. destruct Ex as (u & Iu & Eu).
  apply tree_same_eq in Eu. subst u. apply D. exact (same_cell st st' t t' _ _ _ _ _ H H' Iu I').
Qed.
Lemma fresh_length (l : list (tree A)) : length (flat_map (fun s => names_of (t_name s)) l) <= length l.
Proof. induction l as [|[lv [n|] d a b] l IH]; simpl; [lia|lia|lia]. Qed.
End Trees.

(** ** Contents can be compared *)
Section Compare.
Context {T A : Type} (eqT : forall x y : T, {x = y} + {x <> y}) (eqA : forall x y : A, {x = y} + {x <> y}).
Fixpoint shead_eq_dec (x y : shead T) {struct x} : {x = y} + {x <> y}.
Proof.
  destruct x as [e [n|]|c], y as [e' [n'|]|c']; try (right; discriminate).
  - destruct (eqT e e') as [->|N]; [|right; congruence].
    destruct (shead_eq_dec n n') as [->|N]; [left; reflexivity|right; congruence].
  - destruct (eqT e e') as [->|N]; [left; reflexivity|right; congruence].
  - destruct (loc_eq_dec c c') as [->|N]; [left; reflexivity|right; congruence].
Defined.
Fixpoint stree_eq_dec (x y : stree A) {struct x} : {x = y} + {x <> y}.
Proof.
  destruct x as [v d l r|v c], y as [v' d' l' r'|v' c']; try (right; discriminate).
  - destruct (N.eq_dec v v') as [->|N]; [|right; congruence]. destruct (eqA d d') as [->|N]; [|right; congruence].
    destruct l as [l|], l' as [l'|]; try (right; discriminate);
      [destruct (stree_eq_dec l l') as [->|N]; [|right; congruence]|];
      (destruct r as [r|], r' as [r'|]; try (right; discriminate);
       [destruct (stree_eq_dec r r') as [->|N]; [left; reflexivity|right; congruence]|left; reflexivity]).
  - destruct (N.eq_dec v v') as [->|N]; [|right; congruence].
    destruct (loc_eq_dec c c') as [->|N]; [left; reflexivity|right; congruence].
Defined.
Definition option_eq_dec {X} (d : forall x y : X, {x = y} + {x <> y}) (x y : option X) : {x = y} + {x <> y}.
Proof. decide equality. Defined.
Definition cell_eq_dec (x y : cell_data T A) : {x = y} + {x <> y}.
Proof.
  destruct x as [e n|d l r], y as [e' n'|d' l' r']; try (right; discriminate).
  - destruct (eqT e e') as [->|N]; [|right; congruence].
    destruct (option_eq_dec shead_eq_dec n n') as [->|N]; [left; reflexivity|right; congruence].
  - destruct (eqA d d') as [->|N]; [|right; congruence].
    destruct (option_eq_dec stree_eq_dec l l') as [->|N]; [|right; congruence].
    destruct (option_eq_dec stree_eq_dec r r') as [->|N]; [left; reflexivity|right; congruence].
Defined.
(** The cells among the given ones that differ. *)
Definition diff (st st' : store T A) (ws : list loc) : list loc :=
  filter (fun a => if option_eq_dec cell_eq_dec (st' a) (st a) then false else true) (nodup loc_eq_dec ws).
Lemma diff_overwritten (st st' : store T A) ws : (forall a, st' a <> st a -> In a ws) -> overwritten st st' (diff st st' ws).
Proof.
  intros H. split; [apply NoDup_filter, NoDup_nodup|]. intros a. unfold diff. rewrite filter_In, nodup_In.
  destruct (option_eq_dec cell_eq_dec (st' a) (st a)) as [Q|Q]; [split; [intros []; discriminate|congruence]|].
  split; [auto|]. split; [now apply H|reflexivity].
Qed.
Lemma diff_length (st st' : store T A) ws : length (diff st st' ws) <= length ws.
Proof.
  unfold diff. etransitivity; [apply filter_length|]. apply NoDup_incl_length; [apply NoDup_nodup|].
  intros a. now rewrite nodup_In.
Qed.
End Compare.

Section Raz.
Context {E M : Type} {RM : RazMeta E M} (eqD : forall x y : tree_data E M, {x = y} + {x <> y}) (q : list name).
Notation rstore := (store (level * list E) (tree_data E M)).
Notation atoms := (list (atom E level)).

Definition points (l : atoms) : list name := flat_map (fun p => names_of (snd p)) (marks l).
Lemma points_in n (l : atoms) : In n (points l) <-> has_point n l.
Proof.
  unfold points, has_point. rewrite in_flat_map, in_map_iff. split.
  - intros (p & I & H). exists p. split; [|exact I]. destruct (snd p); simpl in H; [destruct H as [->|[]]; reflexivity|contradiction].
  - intros (p & H & I). exists p. split; [exact I|]. rewrite H. now left.
Qed.
Lemma points_length (l : atoms) : length (points l) <= length (marks l).
Proof. unfold points. induction (marks l) as [|[m [n|]] r IH]; simpl; lia. Qed.
Lemma has_point_app n (a b : atoms) : has_point n (a ++ b) <-> has_point n a \/ has_point n b.
Proof. unfold has_point. rewrite marks_app, map_app, in_app_iff. tauto. Qed.

Section Edit.
Context (t t' : raz_tree E M) (pre mid mid' post : atoms).
Hypothesis reached : tree_reached false t.
Hypothesis reached' : tree_reached false t'.
Hypothesis disciplined : orderly_points [contents t'; contents t].
Hypothesis before : contents t = pre ++ mid ++ post.
Hypothesis after : contents t' = pre ++ mid' ++ post.

Definition edit_bound (cs : list (cmd E Index)) : nat :=
  seen_from_right pre + length (marks mid') + seen_from_left 0%N post + length (marks mid) + length (flat_map c_names cs).

Lemma both_reached : Forall (fun t => tree_reached false t) [t'; t].
Proof using reached reached'. apply Forall_cons; [exact reached'|]. apply Forall_cons; [exact reached|apply Forall_nil]. Qed.

Lemma changed_locs (cs : list (cmd E Index)) (st st' : rstore) h h' :
  tree_reads (within q st) h t -> tree_reads (within q st') h' t' ->
  upto (Nsp := q) (otnames (rt_tree t) ++ flat_map c_names cs) st st' ->
  exists ws, length ws <= edit_bound cs /\ forall a, st' a <> st a -> In a ws.
Proof.
  intros (_ & Rd) (_ & Rd') Up.
  pose proof (reached_ok t t' [] both_reached) as Rok. pose proof (orderly_trees _ Rok disciplined) as Od.
  pose proof (reached_conv t t' [] both_reached t' (or_introl eq_refl)) as C'.
  pose proof (reached_conv t t' [] both_reached t (or_intror (or_introl eq_refl))) as C.
  inversion Rok as [|? ? O' Rok1]; subst. inversion Rok1 as [|? ? O _]; subst. clear Rok Rok1.
  set (news := match rt_tree t, rt_tree t' with
               | Some tr, Some tr' => flat_map (fun s => names_of (t_name s)) (fresh_nodes eqD tr tr')
               | _, _ => []
               end).
  exists (map (pair q) (news ++ points mid ++ flat_map c_names cs)). split.
  - rewrite map_length, !app_length. pose proof (points_length mid) as P. unfold edit_bound.
    enough (length news <= seen_from_right pre + length (marks mid') + seen_from_left 0%N post) by lia.
    unfold news. unfold contents in before, after. unfold trees in Od. cbn [flat_map] in Od.
    destruct (rt_tree t) as [tr|]; [|apply Nat.le_0_l]. destruct (rt_tree t') as [tr'|]; [|apply Nat.le_0_l].
    cbn [app] in Od. pose proof (orderly_head _ _ Od) as (In' & _ & _).
    pose proof (changed_bound eqD tr tr' pre mid mid' post O C O' C' In' before after) as Q.
    etransitivity; [apply fresh_length|exact Q].
  - intros [p n] D.
    destruct (list_eq_dec name_eq_dec p q) as [->|Np]; [|exfalso; apply D, Up; left; exact Np].
    apply in_map. destruct (in_dec name_eq_dec n (flat_map c_names cs)) as [Ic|Nc].
    { apply in_or_app. right. apply in_or_app. now right. }
    destruct (in_dec name_eq_dec n (otnames (rt_tree t))) as [It|Nt].
    2:{ exfalso. apply D, Up. right. cbn [snd]. rewrite cnt_app. apply cnt_zero in Nc, Nt. lia. }
    destruct (rt_tree t) as [tr|] eqn:Et; [|contradiction It]. cbn [otnames] in It. rewrite <- names_tnames in It.
    assert (Hp : has_point n (contents t)) by (unfold contents; rewrite Et; now apply tree_names).
    destruct (srt_tree h) as [hr|]; [|contradiction Rd]. apply reads_rep, (homed eqD) in Rd. destruct Rd as [_ Hd].
    rewrite before, !has_point_app in Hp.
    assert (Old : has_point n mid \/ has_point n (contents t')) by (rewrite after, !has_point_app; tauto).
    destruct Old as [Old|Old]; [apply in_or_app; right; apply in_or_app; left; now apply points_in|].
    unfold contents in Old. destruct (rt_tree t') as [tr'|] eqn:Et'; [|contradiction Old].
    destruct (srt_tree h') as [hr'|]; [|contradiction Rd']. apply reads_rep, (homed eqD) in Rd'. destruct Rd' as [_ Hd'].
    unfold trees in Od. cbn [flat_map] in Od. rewrite Et, Et' in Od. cbn [app] in Od.
    pose proof (orderly_head _ _ Od) as (In' & _ & _).
    apply in_or_app. left. unfold news. apply (other_cell eqD q st st'); auto. now apply tree_names.
Qed.

Lemma names_once : NoDup (flat_map node_names [t]).
Proof using disciplined reached.
  apply uniq_NoDup. intros n. cbn [flat_map]. rewrite app_nil_r. unfold node_names.
  destruct disciplined as ((_ & _ & Nd & _) & _).
  destruct (tree_reached_canonical t reached) as [[O _] _]. unfold contents in Nd.
  destruct (rt_tree t) as [tr|]; [|apply Nat.le_0_l]. cbn [oinorder]. rewrite names_cnt, <- names_tnames.
  revert n. apply uniq_NoDup. now apply tree_names_nodup.
Qed.

Lemma footprint (cs : list (cmd E Index)) os p' : p_run [VTree t] cs = Ok (os, p') -> names_ok_run [VTree t] cs ->
  forall k (st : rstore) h os' sp' st', tree_reads (within q st) h t -> s_run (Nsp := q) k [VTree h] cs st = Ok ((os', sp'), st') ->
  forall a, st' a <> st a -> fst a = q /\ In (snd a) (otnames (rt_tree t) ++ flat_map c_names cs).
Proof using disciplined reached.
  intros H Nk k st h os' sp' st' Rd Rn [p n] Df.
  destruct (live_run_sim (Nsp := q) cs _ _ _ H Nk) as [k2 K2].
  destruct (K2 k2 (le_n _) st [VTree h]) as (sp2 & st2 & R2 & _ & Up & _).
  { apply (reads_prep q st [h] [t]). constructor; [|constructor]. eapply tree_reads_below; [apply within_below|exact Rd]. }
  { apply (node_names_uniq [t]), names_once. }
  destruct (enough cs _ st _ _ R2 k) as [X|X]; rewrite Rn in X; [discriminate|]. injection X as <- <- <-.
  unfold pnames in Up. cbn [flat_map vnames] in Up. rewrite app_nil_r in Up. cbn [fst snd].
  destruct (list_eq_dec name_eq_dec p q) as [->|Np]; [|exfalso; apply Df, Up; left; exact Np]. split; [reflexivity|].
  destruct (in_dec name_eq_dec n (otnames (rt_tree t) ++ flat_map c_names cs)) as [I|N]; [exact I|].
  exfalso. apply Df, Up. right. now apply cnt_zero.
Qed.

Theorem edit_cells (eqE : forall x y : E, {x = y} + {x <> y}) (cs : list (cmd E Index)) os p' :
  p_run [VTree t] cs = Ok (os, p') -> names_ok_run [VTree t] cs -> In (VTree t') p' ->
  forall k st h os' sp' st', tree_reads (within q st) h t -> s_run (Nsp := q) k [VTree h] cs st = Ok ((os', sp'), st') ->
  Forall2 (shows (within q st')) sp' p' /\ exists l, overwritten st st' l /\ length l <= edit_bound cs.
Proof.
  intros H Nk I k st h os' sp' st' Rd Rn.
  destruct (home q cs [t] os p' H Nk names_once) as [k1 K1].
  destruct (live_run_sim (Nsp := q) cs _ _ _ H Nk) as [k2 K2].
  destruct (K1 (k1 + k2) st [h] ltac:(lia)) as (sp1 & st1 & R1 & Sh). { constructor; [exact Rd|constructor]. }
  destruct (K2 (k1 + k2) ltac:(lia) st [VTree h]) as (sp2 & st2 & R2 & _ & Up & _).
  { apply (reads_prep q st [h] [t]). constructor; [|constructor]. eapply tree_reads_below; [apply within_below|exact Rd]. }
  { apply (node_names_uniq [t]), names_once. }
  cbn [map] in R1. rewrite R1 in R2. injection R2 as <- <-.
  destruct (enough cs _ st _ _ R1 k) as [X|X]; rewrite Rn in X; [discriminate|]. injection X as <- <- <-.
  split; [exact Sh|].
  assert (Rd' : exists h', tree_reads (within q st') h' t').
  { clear -Sh I. induction Sh as [|s v sp vs V _ IH]; [contradiction|]. destruct I as [->|I]; [|auto].
    destruct s as [h'| |]; try contradiction. exists h'. exact V. }
  destruct Rd' as [h' Rd'].
  destruct (changed_locs cs st st' h h' Rd Rd') as (ws & W & Wi).
  { unfold pnames in Up. cbn [flat_map vnames] in Up. rewrite app_nil_r in Up. exact Up. }
  assert (eqT : forall x y : level * list E, {x = y} + {x <> y}).
  { intros [v a] [v' a']. destruct (N.eq_dec v v') as [->|N]; [|right; congruence].
    destruct (list_eq_dec eqE a a') as [->|N]; [left; reflexivity|right; congruence]. }
  exists (diff eqT eqD st st' ws). split; [now apply diff_overwritten|].
  etransitivity; [apply diff_length|exact W].
Qed.
End Edit.
End Raz.
