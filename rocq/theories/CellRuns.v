(** * The average number of cells an edit changes, and runs to apply it to. *)

From Coq Require Import ConstructiveEpsilon.
From Verif Require Import Base BaseFacts Spec SpecRaz StackModel AStackModel LevelTreeModel TreeSpec TreeCursorModel
  RazMetaModel RazModel RazView RazScripts RazSession RazReach RazFacts RazIndex RazExamples LevelGenModel LevelGenProofs
  MemoModel MemoSpec MemoHistory MemoRaz StoreModel StoreSpec StoreScripts StoreProofs StoreHistory StoreNs StoreLive IncModel IncSpec IncProofs IncCost
  StoreFuel CellSpec CellCost ChanceSpec Chance ChanceCases ChanceRuns.

Lemma average_cells {E M} {RM : RazMeta E M} (eqE : forall x y : E, {x = y} + {x <> y})
    (eqD : forall x y : tree_data E M, {x = y} + {x <> y}) a b k (count : list N -> nat) :
  (N.of_nat a < 2 ^ 63)%N -> (N.of_nat b < 2 ^ 63)%N ->
  (forall ws, draws (a + b) ws -> exists q t t' pre mid mid' post (cs : list (cmd E Index)) os p' f st h os' sp' st' l,
    tree_reached false t /\ tree_reached false t' /\ orderly_points [contents t'; contents t] /\
    contents t = pre ++ mid ++ post /\ contents t' = pre ++ mid' ++ post /\
    length (marks mid) + length (marks mid') + length (flat_map c_names cs) <= k /\
    levels_from pre (firstn a ws) /\ levels_from post (skipn a ws) /\
    p_run [VTree t] cs = Ok (os, p') /\ names_ok_run [VTree t] cs /\ In (VTree t') p' /\
    tree_reads (within q st) h t /\ s_run (Nsp := q) f [VTree h] cs st = Ok ((os', sp'), st') /\
    overwritten st st' l /\ length l = count ws) ->
  on_average (a + b) (fun ws => N.of_nat (count ws)) (N.of_nat k + N.log2 (N.of_nat a) + N.log2 (N.of_nat b) + 4)%N.
Proof.
  intros Ha Hb H. apply (seen_both_log (E := E)); [exact Ha|exact Hb|]. intros ws D.
  destruct (H ws D) as (q & t & t' & pre & mid & mid' & post & cs & os & p' & f & st & h & os' & sp' & st' & l & H0).
  destruct H0 as (R & R' & Or & C & C' & K & La & Lb & P & Nk & I & Rd & Rn & (Nd & Ov) & <-).
  destruct (edit_cells eqD q t t' pre mid mid' post R R' Or C C' eqE cs os p' P Nk I f st h os' sp' st' Rd Rn)
    as (_ & l' & (Nd' & Ov') & B).
  exists pre, post. split; [exact La|]. split; [exact Lb|].
  assert (L : length l <= length l').
  { apply NoDup_incl_length; [exact Nd|]. intros x Ix. apply Ov'. now apply Ov. }
  unfold edit_bound in B. lia.
Qed.

Lemma run_steps {E M} {RM : RazMeta E M} i cs : forall ops p z xs z', nth_error p i = Some (VRaz z) ->
  zrun z ops = Ok (xs, z') ->
  p_run p (map (CStep i) ops ++ cs) = do ' (ys, p') <- p_run (put_at i (VRaz z') p) cs; Ok (map CZ xs ++ ys, p').
Proof.
  assert (Pp : forall (p : list (val (raz_tree E M) (raz E M))) i z, nth_error p i = Some (VRaz z) -> put_at i (VRaz z) p = p).
  { induction p as [|v p IH]; intros [|j] z H; simpl in *; try discriminate; [congruence|]. now rewrite IH. }
  assert (Pn : forall (p : list (val (raz_tree E M) (raz E M))) i v u, nth_error p i = Some v -> nth_error (put_at i u p) i = Some u).
  { induction p as [|v p IH]; intros [|j] w u H; simpl in *; try discriminate; [congruence|]. eauto. }
  assert (P2 : forall (p : list (val (raz_tree E M) (raz E M))) i u w, put_at i w (put_at i u p) = put_at i w p).
  { induction p as [|v p IH]; intros [|j] u w; simpl; auto. now rewrite IH. }
  induction ops as [|o ops IH]; intros p z xs z' Hn Hz; cbn [map app zrun] in *.
  - injection Hz as <- <-. rewrite (Pp _ _ _ Hn). destruct (p_run p cs) as [[ys p']| |]; reflexivity.
  - apply bind_Ok in Hz. destruct Hz as ([x z1] & Z1 & Hz). apply bind_Ok in Hz. destruct Hz as ([xs1 z2] & Z2 & Hz).
    injection Hz as <- <-. cbn [p_run p_step]. rewrite Hn, Z1. cbn [bind].
    rewrite (IH _ _ _ _ (Pn _ _ _ _ Hn) Z2), P2.
    destruct (p_run _ cs) as [[ys p']| |]; reflexivity.
Qed.

(** The tree of [ChanceRuns] made in the store, and an insertion into it. *)
Definition setup (ws : list N) : list (cmd nat (@Index nat RazMetaModel.count _)) :=
  CRaz :: map (CStep 0) (chain_ops (fun i => i) 0 (map gen_branch_level ws)) ++ [CUnfocus 0].
Definition insert (a : nat) : list (cmd nat (@Index nat RazMetaModel.count _)) :=
  [CFocus 0 (N.of_nat (S a)); CStep 1 (OPushL 100); CUnfocus 1].
Lemma setup_run ws n : draws n ws -> exists os,
  p_run [] (setup ws) = Ok (os, [VGone; VTree (drawn (fun i => i) ws)]).
Proof.
  intros D. pose proof (drawn_pos n ws D) as F. set (ls := map gen_branch_level ws) in *.
  destruct (new_session (chain_ops (fun i => i) 0 ls) (chain_ok (fun i => i) ls F 0) : exists (z : raz nat RazMetaModel.count) t, _) as (z & t & R & U & C).
  assert (X : drawn (fun i => i) ws = t) by (unfold drawn, run_raz; fold ls; rewrite R; unfold raz_to_tree; now rewrite U).
  unfold setup. fold ls. cbn [p_run p_step bind app].
  rewrite (run_steps 0 [CUnfocus 0] _ [VRaz raz_new] raz_new _ _ eq_refl R). cbn [put_at p_run p_step nth_error]. rewrite U.
  cbn [bind app put_at]. rewrite X. eexists. reflexivity.
Qed.
Lemma chain_cnames ls : forall i, flat_map c_names (map (CStep (I := @Index nat RazMetaModel.count _) 0) (chain_ops (fun i : nat => i) i ls)) =
  flat_map (fun j => [NNum (N.of_nat j); NPair (NNum (N.of_nat j)) (NStr "tree")]) (seq i (length ls)).
Proof. induction ls as [|m ls IH]; intros i; [reflexivity|]. cbn [chain_ops map flat_map length seq]. now rewrite IH. Qed.
Lemma setup_names ws n : draws n ws -> names_ok_run [] (setup ws).
Proof.
  intros D. destruct (setup_run ws n D) as (os & R). eapply distinct_names_ok; [exact R| |].
  - unfold setup. cbn [flat_map c_names app]. rewrite flat_map_app. cbn [flat_map c_names app]. rewrite app_nil_r, chain_cnames.
    generalize (length (map gen_branch_level ws)). intros m. generalize 0. induction m as [|m IH]; intros i; [constructor|].
    cbn [seq flat_map app]. 
    assert (N1 : forall j v, In v (flat_map (fun j => [NNum (N.of_nat j); NPair (NNum (N.of_nat j)) (NStr "tree")]) (seq (S j) m)) ->
      v <> NNum (N.of_nat j) /\ v <> NPair (NNum (N.of_nat j)) (NStr "tree")).
    { intros j v. rewrite in_flat_map. intros (u & Iu & [<-|[<-|[]]]); apply in_seq in Iu; split; try discriminate;
        intros Q; injection Q as Q; lia. }
    constructor; [|constructor; [|apply IH]].
    + intros [Q|Q]; [discriminate|]. now apply N1 in Q.
    + intros Q. now apply N1 in Q.
  - unfold setup. cbn [existsb is_clone orb]. rewrite existsb_app. cbn [existsb is_clone orb]. rewrite orb_false_r.
    induction (chain_ops _ 0 _) as [|o l IH]; [reflexivity|]. exact IH.
Qed.
Lemma insert_run a b ws : (N.of_nat (a + b) < 2 ^ 63)%N -> draws (a + b) ws ->
  exists os t' pre post, p_run [VTree (drawn (fun i => i) ws)] (insert a) = Ok (os, [VGone; VGone; VTree t']) /\
    tree_reached false t' /\ contents (drawn (fun i => i) ws) = pre ++ [] ++ post /\ contents t' = pre ++ [Elt 100] ++ post /\
    levels_from pre (firstn a ws) /\ levels_from post (skipn a ws).
Proof.
  intros Hn D. destruct (drawn_ok (fun i => i) (a + b) ws D) as (R & C). pose proof (proj1 D) as Ln. set (t := drawn (fun i => i) ws) in *.
  assert (El : length (elts (contents t)) = S (a + b)) by (rewrite C, chain_elts, map_length, Ln; reflexivity).
  assert (Lt : (n_elts (contents t) < usize_mod)%N).
  { unfold n_elts. rewrite El. change usize_mod with (2 * 2 ^ 63)%N. revert Hn. generalize (2 ^ 63)%N. lia. }
  destruct (focus_count_sim t (S a) (tree_reached_good _ R) Lt ltac:(lia)) as (z & F & Sm & _).
  destruct (chain_split (fun i => i) a 0 (map gen_branch_level ws)) as (p & q & X & Pq & Lp & Lq); [rewrite map_length; lia|].
  destruct (sim_session _ _ Sm [OPushL 100]) as (z' & t' & Rz & U & Ct); [repeat constructor|].
  exists [CDone; CZ (OutLen (fst (push_left z 100))); CDone], t', p, q. split; [|split; [|split; [|split; [|split]]]].
  - unfold insert. cbn [p_run p_step nth_error]. rewrite F. cbn [bind put_at app].
    cbn [zrun zstep] in Rz. destruct (push_left z 100) as [n1 z1] eqn:Pl. cbn [bind] in Rz. injection Rz as _ <-.
    cbn [zstep]. rewrite Pl. cbn [bind put_at nth_error p_step fst]. rewrite U. cbn [bind app put_at]. reflexivity.
  - eapply TR_unfocus; [|exact U]. eapply zrun_reached; [|eapply RR_focus; [exact R|apply lawful_count|exact F]|exact Rz]. repeat constructor.
  - rewrite C. symmetry. exact Pq.
  - rewrite Ct. unfold sz_focus_count. rewrite C, X. unfold sz_at.
    cbn [sz_run sz_step sz_push_left sp_push s_left s_right s_lnew s_rnew snd]. unfold sz_unfocus, sp_push. cbn [s_left s_right].
    destruct q as [|[e|m nm] q]; cbn [rev]; rewrite rev_involutive, <- app_assoc; reflexivity.
  - unfold levels_from. now rewrite Lp, firstn_map.
  - unfold levels_from. now rewrite Lq, skipn_map.
Qed.

(** The whole: making the tree, then the insertion, in one namespace and from an empty
    store; the stores before and after the insertion. *)
Notation rst := (store (level * list nat) (tree_data nat RazMetaModel.count)).
Definition whole (q : list name) (a : nat) (ws : list N) (k : nat) : option (rst * sraz_tree nat RazMetaModel.count * rst) :=
  match s_run (Nsp := q) k [] (setup ws) (fun _ => None) with
  | Ok ((_, [_; VTree h]), st) =>
      match s_run (Nsp := q) k [VTree h] (insert a) st with
      | Ok (_, st') => Some (st, h, st')
      | _ => None
      end
  | _ => None
  end.
Definition eq_elts (x y : level * list nat) : {x = y} + {x <> y}.
Proof.
  destruct x as [v a], y as [v' a']. destruct (N.eq_dec v v') as [->|N]; [|right; congruence].
  destruct (list_eq_dec Nat.eq_dec a a') as [->|N]; [left; reflexivity|right; congruence].
Defined.
Definition chain_locs (q : list name) (n : nat) : list loc :=
  map (fun i => (q, NPair (NNum (N.of_nat i)) (NStr "tree"))) (seq 0 n).
Definition cells_after (q : list name) (a n : nat) (o : option (rst * sraz_tree nat RazMetaModel.count * rst)) : list loc :=
  match o with
  | Some (st, _, st') => diff eq_elts eq_node st st' (chain_locs q n)
  | None => []
  end.

Lemma insert_names a t : names_ok_run (RM := count_meta nat) [VTree t] (insert a).
Proof.
  unfold insert. cbn [names_ok_run].
  assert (Q : forall p c, In c (insert a) -> names_ok (RM := count_meta nat) p c).
  { intros p c [<-|[<-|[<-|[]]]]; (split; [constructor|]; split; [intros n v []|discriminate]). }
  split; [apply Q; now left|]. destruct (p_step _ _) as [[? p1]| |]; auto.
  split; [apply Q; right; now left|]. destruct (p_step _ _) as [[? p2]| |]; auto.
  split; [apply Q; right; right; now left|]. destruct (p_step _ _) as [[? p3]| |]; auto.
Qed.

Lemma whole_ok q a b ws : (N.of_nat (a + b) < 2 ^ 63)%N -> draws (a + b) ws -> exists k, whole q a ws k <> None.
Proof.
  intros Hn D. destruct (setup_run ws _ D) as (os & R). destruct (insert_run a b ws Hn D) as (os2 & t' & pre & post & R2 & _).
  destruct (home q (setup ws) [] os _ R (setup_names ws _ D) (NoDup_nil _)) as [k1 K1].
  assert (Nd : NoDup (flat_map node_names [drawn (fun i => i) ws])).
  { destruct (drawn_ok (fun i => i) _ ws D) as (Rd & C). apply names_once with (t' := drawn (fun i => i) ws); [exact Rd|].
    rewrite C. apply chain_orderly. }
  destruct (home q (insert a) [_] os2 _ R2 (insert_names a _) Nd) as [k2 K2].
  destruct (K1 (k1 + k2) (fun _ => None) [] ltac:(lia) (Forall2_nil _)) as (sp & st & E1 & F). cbn [map] in E1.
  inversion F as [|s1 v1 l1 l2 V1 F1]; subst. inversion F1 as [|s2 v2 l3 l4 V2 F2]; subst. inversion F2; subst.
  destruct s2 as [h| |]; try contradiction V2.
  destruct (K2 (k1 + k2) st [h] ltac:(lia)) as (sp' & st' & E2 & _); [constructor; [exact V2|constructor]|]. cbn [map] in E2.
  exists (k1 + k2). unfold whole. rewrite E1, E2. discriminate.
Qed.

(** Enough fuel. *)
Definition below_dec (w m : N) : {(w < m)%N} + {~ (w < m)%N}.
Proof. destruct (w <? m)%N eqn:Q; [left; now apply N.ltb_lt|right; now apply N.ltb_nlt]. Defined.
Definition draws_dec n ws : {draws n ws} + {~ draws n ws}.
Proof.
  unfold draws. destruct (Nat.eq_dec (length ws) n) as [Q|Q]; [|right; intros [? _]; contradiction].
  destruct (Forall_dec (fun w => (w < 2 ^ 64)%N) (fun w => below_dec w (2 ^ 64)%N) ws) as [F|F]; [left; auto|right; intros [_ ?]; contradiction].
Defined.
Definition some_dec {X} (o : option X) : {o <> None} + {~ o <> None}.
Proof. destruct o; [left; discriminate|right; congruence]. Defined.
Definition enough_fuel q a b ws (Hn : (N.of_nat (a + b) < 2 ^ 63)%N) : nat :=
  match draws_dec (a + b) ws with
  | left D => proj1_sig (constructive_indefinite_ground_description_nat _ (fun k => some_dec (whole q a ws k)) (whole_ok q a b ws Hn D))
  | right _ => 0
  end.
Lemma enough_fuel_ok q a b ws Hn : draws (a + b) ws -> whole q a ws (enough_fuel q a b ws Hn) <> None.
Proof.
  intros D. unfold enough_fuel. destruct (draws_dec (a + b) ws) as [D'|N]; [|contradiction].
  destruct (constructive_indefinite_ground_description_nat _ _ _) as [k K]. exact K.
Qed.

Definition insert_cells (q : list name) (a b : nat) (Hn : (N.of_nat (a + b) < 2 ^ 63)%N) (ws : list N) : nat :=
  length (cells_after q a (a + b) (whole q a ws (enough_fuel q a b ws Hn))).

Lemma insert_ok q a b Hn ws : draws (a + b) ws ->
  exists q' t t' pre mid mid' post (cs : list (cmd nat (@Index nat RazMetaModel.count _))) os p' f st h os' sp' st' l,
    tree_reached false t /\ tree_reached false t' /\ orderly_points [contents t'; contents t] /\
    contents t = pre ++ mid ++ post /\ contents t' = pre ++ mid' ++ post /\
    length (marks mid) + length (marks mid') + length (flat_map c_names cs) <= 0 /\
    levels_from pre (firstn a ws) /\ levels_from post (skipn a ws) /\
    p_run [VTree t] cs = Ok (os, p') /\ names_ok_run [VTree t] cs /\ In (VTree t') p' /\
    tree_reads (within q' st) h t /\ s_run (Nsp := q') f [VTree h] cs st = Ok ((os', sp'), st') /\
    overwritten st st' l /\ length l = insert_cells q a b Hn ws.
Proof.
  intros D. destruct (setup_run ws _ D) as (os & R). destruct (insert_run a b ws Hn D) as (os2 & t' & pre & post & R2 & Rt' & C & C' & La & Lb).
  destruct (drawn_ok (fun i => i) _ ws D) as (Rd & Cd). set (t := drawn (fun i => i) ws) in *.
  assert (Or : orderly_points [contents t'; contents t]).
  { assert (Q : marks (contents t') = marks (contents t)) by (rewrite C, C', !marks_app; reflexivity).
    pose proof (chain_orderly (fun i => i) (fun i => i) (map gen_branch_level ws)) as O. rewrite <- Cd in O.
    cbn [orderly_points] in *. unfold has_point in *. rewrite Q. exact O. }
  pose proof (enough_fuel_ok q a b ws Hn D) as W. unfold insert_cells.
  set (f := enough_fuel q a b ws Hn) in *. clearbody f. unfold whole in *.
  destruct (s_run f [] (setup ws) (fun _ => None)) as [[[o1 sp1] st]| |] eqn:E1; try contradiction.
  destruct (home q (setup ws) [] os _ R (setup_names ws _ D) (NoDup_nil _)) as [k1 K1].
  destruct (K1 k1 (fun _ => None) [] (le_n _) (Forall2_nil _)) as (sp & st0 & E0 & F). cbn [map] in E0.
  destruct (enough (Nsp := q) _ _ _ _ _ E0 f) as [X|X]; rewrite E1 in X; [discriminate|]. injection X as -> -> ->.
  inversion F as [|s1 v1 l1 l2 V1 F1]; subst. inversion F1 as [|s2 v2 l3 l4 V2 F2]; subst. inversion F2; subst.
  destruct s2 as [h| |]; try contradiction V2. change (tree_reads (within q st0) h t) in V2.
  destruct (s_run f [VTree h] (insert a) st0) as [[[o2 sp2] st']| |] eqn:E2; try contradiction.
  exists q, t, t', pre, [], [Elt 100], post, (insert a), os2, [VGone; VGone; VTree t'], f, st0, h, o2, sp2, st'.
  exists (cells_after q a (a + b) (Some (st0, h, st'))).
  do 5 (split; [assumption|]). split; [reflexivity|]. do 3 (split; [assumption|]). split; [apply insert_names|].
  split; [right; right; now left|]. split; [exact V2|]. split; [exact E2|]. split; [|reflexivity].
  cbn [cells_after]. apply diff_overwritten. intros [p n] Df.
  destruct (footprint q t t' Rd Or (insert a) _ _ R2 (insert_names a _) f st0 h o2 sp2 st' V2 E2 _ Df) as [Q It].
  cbn [fst snd] in Q, It. subst p. unfold insert in It. cbn [flat_map c_names app] in It. rewrite app_nil_r in It.
  destruct (tree_reached_canonical t Rd) as [[O _] _]. unfold contents in Cd.
  destruct (rt_tree t) as [tr|]; [|contradiction It]. cbn [otnames] in It. rewrite <- names_tnames in It.
  apply (tree_names tr O) in It. unfold has_point in It. rewrite Cd, chain_names, in_map_iff in It.
  destruct It as (i & Q & Ii). unfold chain_name in Q. injection Q as <-.
  apply in_map_iff. exists i. split; [reflexivity|]. rewrite map_length, (proj1 D) in Ii. exact Ii.
Qed.
