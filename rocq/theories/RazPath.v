(** * The length of the path to the cursor. *)

From Verif Require Import Base BaseFacts Spec SpecRaz StackModel AStackModel StackProofs
  LevelTreeModel TreeCursorModel RazMetaModel RazModel TreeSpec TreeProofs CursorProofs RazView
  RazProofs RazFocus RazScripts RazSession RazReach RazFacts RazIndex MemoSpec MemoRaz PathSpec.

Section Path.
Context {E M : Type} {RM : RazMeta E M}.
Notation rtree := (tree (tree_data E M)).
Notation atoms := (list (atom E level)).
Notation W := (@node_ok E M RM).
Notation obs := (@item_atoms E M).
Notation lf_item := (lf_item W branchy present).
Notation rf_item := (rf_item W branchy present).
Implicit Types (l a b : atoms).

Definition below (m : level) a : Prop := Forall (fun p => (fst p <= m)%N) (marks a).
Definition under (m : level) a : Prop := Forall (fun p => (fst p < m)%N) (marks a).
Lemma below_app m a b : below m (a ++ b) <-> below m a /\ below m b.
Proof. unfold below. rewrite marks_app. apply Forall_app. Qed.

Lemma seen_right_under m n a b : under m a -> seen_from_right (a ++ Mark m n :: b) = seen_from_right (Mark m n :: b).
Proof.
  induction a as [|[e|k j] a IH]; intros H; [reflexivity|apply IH, H|]. cbn [app seen_from_right marks] in *.
  inversion H as [|? ? H1 H2]; subst. cbn [fst] in H1. rewrite IH by exact H2.
  assert (F : forallb (fun p : N * option name => (fst p <=? k)%N) (marks (a ++ Mark m n :: b)) = false).
  { rewrite marks_app. cbn [marks]. rewrite forallb_app. cbn [forallb fst].
    assert ((m <=? k)%N = false) as -> by (apply N.leb_gt; exact H1). apply andb_false_r. }
  now rewrite F.
Qed.
Lemma seen_right_top m n b : below m b -> seen_from_right (Mark m n :: b) = S (seen_from_right b).
Proof.
  intros H. cbn [seen_from_right].
  assert (F : forallb (fun p : N * option name => (fst p <=? m)%N) (marks b) = true).
  { apply forallb_forall. intros p Hp. apply N.leb_le. exact (proj1 (Forall_forall _ _) H p Hp). }
  now rewrite F.
Qed.
Lemma seen_left_below m b : below m b -> forall r, seen_from_left m (b ++ r) = seen_from_left m r.
Proof.
  induction b as [|[e|k j] b IH]; intros H r; [reflexivity|apply IH, H|]. cbn [app seen_from_left]. unfold below in H. cbn [marks] in H.
  inversion H as [|? ? H1 H2]; subst. cbn [fst] in H1.
  assert ((m <? k)%N = false) as -> by (apply N.ltb_ge; exact H1). now apply IH.
Qed.
Lemma seen_right_elts l : marks l = [] -> forall p, seen_from_right (p ++ l) = seen_from_right p.
Proof.
  intros H. assert (seen_from_right l = 0) as Z.
  { clear -H. induction l as [|[e|k j] l IH]; [reflexivity|apply IH, H|discriminate]. }
  induction p as [|[e|k j] p IH]; [exact Z|exact IH|]. cbn [app seen_from_right]. now rewrite IH, marks_app, H, app_nil_r.
Qed.
Lemma seen_left_elts l : marks l = [] -> forall t r, seen_from_left t (l ++ r) = seen_from_left t r.
Proof. induction l as [|[e|k j] l IH]; intros H t r; [reflexivity|now apply IH|discriminate]. Qed.

Lemma tree_below (t : rtree) : tree_ok t -> conventional t -> below (t_level t) (tree_atoms (Some t)).
Proof.
  intros O C. pose proof (atoms_bounded t O C) as B. unfold below. revert B. generalize (tree_atoms (Some t)).
  induction l as [|[e|m n] l IH]; intros B; cbn [marks]; [constructor|inv B; now apply IH|]. inv B. constructor; [assumption|now apply IH].
Qed.
Lemma below_lt m k a : below m a -> (m < k)%N -> under k a.
Proof. intros H L. eapply Forall_impl; [|exact H]. cbn. intros. lia. Qed.
Lemma below_le m k a : below m a -> (m <= k)%N -> below k a.
Proof. intros H L. eapply Forall_impl; [|exact H]. cbn. intros. lia. Qed.
Lemma under_below m a : under m a -> below m a.
Proof. intros H. eapply Forall_impl; [|exact H]. cbn. intros. lia. Qed.

Lemma left_forest_seen f : Forall lf_item f -> lf_ord f -> forall y,
  match f with [] => True | (_, t) :: _ => below (t_level t) y end ->
  seen_from_right (lf_obs obs f ++ y) = length f + seen_from_right y.
Proof.
  induction f as [|[d t] f IH]; intros F Or y Hy; [reflexivity|]. cbn [lf_obs length].
  inversion F as [|? ? (Br & Wl & Pl) F']; subst. destruct Or as (Cl & Ll & Hd & Or). cbn [snd] in *.
  destruct (t_left t) as [tl|] eqn:Tl; [|now elim Pl]. cbn [otwf oconventional lev_lt] in *.
  rewrite (branchy_obs _ _ _ Br). assert (Bl := tree_below tl Wl Cl).
  assert (U : under (t_level t) (tree_atoms (Some tl))) by (eapply below_lt; eauto).
  rewrite <- !app_assoc. cbn [app]. change (tobs obs (Some tl)) with (tree_atoms (Some tl)).
  rewrite IH; [| |exact Or|].
  - rewrite seen_right_under by exact U. rewrite seen_right_top by exact Hy. lia.
  - exact F'.
  - destruct f as [|[d' t'] f]; [exact I|]. cbn [hd_le] in Hd. apply below_app. split.
    + eapply below_le; [apply under_below, U|exact Hd].
    + unfold below. cbn [marks]. constructor; [exact Hd|]. eapply below_le; eauto.
Qed.
Lemma right_forest_seen f : Forall rf_item f -> rf_ord f -> forall top,
  match f with [] => True | (_, t) :: _ => (top < t_level t)%N end ->
  seen_from_left top (rf_obs obs f) = length f.
Proof.
  induction f as [|[d t] f IH]; intros F Or top Ht; [reflexivity|]. cbn [rf_obs length].
  inversion F as [|? ? (Br & Wr & Pr) F']; subst. destruct Or as (Cr & Lr & Hd & Or). cbn [snd] in *.
  destruct (t_right t) as [tr|] eqn:Tr; [|now elim Pr]. cbn [otwf oconventional lev_le] in *.
  rewrite (branchy_obs _ _ _ Br). cbn [app seen_from_left].
  assert ((top <? t_level t)%N = true) as -> by (apply N.ltb_lt; exact Ht).
  change (tobs obs (Some tr)) with (tree_atoms (Some tr)).
  rewrite seen_left_below by (eapply below_le; [apply tree_below; eassumption|exact Lr]).
  f_equal. apply IH; [exact F'|exact Or|exact Hd].
Qed.

Lemma beyond_0 l : beyond 0 l = l.
Proof. now destruct l. Qed.
Lemma beyond_app l r : exists e, beyond (length (marks l)) (l ++ r) = map Elt e ++ r.
Proof.
  induction l as [|[e|m n] l IH]; [exists []; apply beyond_0| |exact IH].
  cbn [marks app]. destruct (length (marks l)) eqn:K; [|exact IH].
  exists (e :: elts l). rewrite beyond_0. cbn [map app]. f_equal.
  clear IH. induction l as [|[x|m n] l IH]; [reflexivity| |discriminate]. cbn [app elts map]. f_equal. now apply IH.
Qed.

Lemma sim_paths (z : raz E M) s : sim z s -> ordered z ->
  left_path z = seen_from_right (rev (beyond (s_lnew s) (s_left s))) /\
  right_path z = seen_from_left 0%N (beyond (s_rnew s) (s_right s)).
Proof.
  intros S (Ol & Or). unfold left_path, right_path.
  assert (Rn : forall l, length (marks (map (@ren E) l)) = length (marks l)).
  { induction l as [|[e|m n] l IH]; cbn [map ren marks length]; [reflexivity|exact IH|]. now rewrite IH. }
  split.
  - rewrite (sim_left _ _ S), (sim_ln _ _ S), <- Rn.
    destruct (beyond_app (map (@ren E) (as_abs (z_l_stack z))) (left_atoms (z_l_forest z))) as (e & X).
    rewrite X, rev_app_distr. unfold left_atoms. rewrite rev_involutive.
    rewrite seen_right_elts.
    + pose proof (left_forest_seen _ (lo_l _ (sim_lc _ _ S)) Ol []) as Y. rewrite app_nil_r in Y. cbn [seen_from_right] in Y.
      rewrite Nat.add_0_r in Y. symmetry. apply Y. destruct (l_forest _) as [|[? ?] ?]; [exact I|constructor].
    + rewrite <- map_rev. apply marks_elts.
  - rewrite (sim_right _ _ S), (sim_rn _ _ S), <- Rn.
    assert (T : match r_forest (z_r_forest z) with [] => True | (_, t) :: _ => (0 < t_level t)%N end).
    { pose proof (ro_r _ (sim_rc _ _ S)) as F. destruct (r_forest _) as [|[d t] f]; [exact I|].
      inversion F as [|? ? ((Lv & _) & _) _]; subst. cbn [snd] in Lv. lia. }
    pose proof (right_forest_seen _ (ro_r _ (sim_rc _ _ S)) Or 0%N T) as Y.
    destruct (beyond_app (map (@ren E) (as_abs (z_r_stack z))) (right_atoms (z_r_forest z))) as (e & X).
    rewrite X, seen_left_elts by apply marks_elts. now symmetry.
Qed.

Lemma focus_paths (t : raz_tree E M) i z : tree_reached false t -> lawful RM -> rt_focus t i = Ok (Some z) ->
  exists p q, p ++ q = contents t /\ session z (sz_at p q) /\
  forall ops os z', Forall zop_ok ops -> zrun z ops = Ok (os, z') ->
  let s := snd (sz_run (sz_at p q) ops) in
  left_path z' = seen_from_right (rev (beyond (s_lnew s) (s_left s))) /\
  right_path z' = seen_from_left 0%N (beyond (s_rnew s) (s_right s)).
Proof.
  intros H Lw F. destruct (focus_some t i z Lw (tree_reached_good _ H) F) as (p & q & X & S & O).
  exists p, q. split; [exact X|]. split; [now apply sim_session|]. intros ops os z' Fo R.
  destruct (zrun_sim ops z (sz_at p q) Fo S) as (z1 & R1 & S1 & O1). rewrite R in R1. injection R1 as _ <-.
  apply sim_paths; [exact S1|]. apply O1, O. now apply tree_reached_canonical.
Qed.
End Path.

Lemma focus_count_paths {E} (t : raz_tree E count) i : tree_reached false t -> (n_elts (contents t) < usize_mod)%N ->
  i <= length (elts (contents t)) ->
  exists z, rt_focus t (N.of_nat i) = Ok (Some z) /\
    left_path z = seen_from_right (fst (split_count i (contents t))) /\
    right_path z = seen_from_left 0%N (snd (split_count i (contents t))).
Proof.
  intros H Lt Hi. destruct (focus_count_sim t i (tree_reached_good _ H) Lt Hi) as (z & F & S & O).
  exists z. split; [exact F|]. destruct (sim_paths z _ S (O (tree_reached_canonical _ H))) as (A & B).
  rewrite A, B. unfold sz_focus_count, sz_at. destruct (split_count i (contents t)) as [p q]. cbn [s_lnew s_left s_rnew s_right fst snd].
  now rewrite !beyond_0, rev_involutive.
Qed.
