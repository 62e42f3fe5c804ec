(** * Raz proofs, part 4: what the three kinds of metadata say. *)

From Verif Require Import Base BaseFacts Spec SpecRaz StackModel AStackModel StackProofs
  LevelTreeModel TreeCursorModel RazMetaModel RazModel TreeSpec TreeProofs CursorProofs RazView
  RazProofs RazUnfocus RazFocus.

Lemma split_at_ok {E} (v : list E) n : (n <= vec_len v)%N ->
  split_at v n = Ok (firstn (N.to_nat n) v, skipn (N.to_nat n) v).
Proof. unfold split_at, vec_len. intros H. apply N.ltb_ge in H. now rewrite H. Qed.

Lemma split_at_all {E} (v : list E) : split_at v (vec_len v) = Ok (v, []).
Proof.
  rewrite split_at_ok by lia. unfold vec_len. rewrite Nat2N.id, firstn_all, skipn_all. reflexivity.
Qed.
Lemma split_at_none {E} (v : list E) : split_at v 0 = Ok ([], v).
Proof. rewrite split_at_ok by lia. reflexivity. Qed.

(** ** Indices that always go to one end *)
Section Ends.
Context {E M : Type} {RM : RazMeta E M}.
Notation rtree := (tree (tree_data E M)).

Lemma loc_always_right (i : Index) :
  (forall l r, navigate l r i = Ok (NavRight i)) -> (forall v : list E, split_vec v i = Ok (v, [])) ->
  forall t : rtree, tree_ok t -> loc t i (tree_atoms (Some t)) [].
Proof.
  intros Hn Hs. induction t as [lv nm d l r Hl Hr] using tree_induction. intros O.
  destruct (tree_ok_case _ O) as [(v & X & Hv)|(lv' & nm' & ml & mr & tl & tr & X & Lv & _ & _ & Kl & Kr)]; inv X.
  - change (Node 0%N None (Leaf v) None None) with (@leaf_of E M v). rewrite tree_atoms_leaf.
    change (@nil (atom E level)) with (map (@Elt E level) []). constructor; [apply Hs|apply app_nil_r].
  - rewrite tree_atoms_branch. eapply loc_right; [apply Hn|]. apply Hr, Kr.
Qed.

Lemma loc_always_left (i : Index) :
  (forall l r, navigate l r i = Ok (NavLeft i)) -> (forall v : list E, split_vec v i = Ok ([], v)) ->
  forall t : rtree, tree_ok t -> loc t i [] (tree_atoms (Some t)).
Proof.
  intros Hn Hs. induction t as [lv nm d l r Hl Hr] using tree_induction. intros O.
  destruct (tree_ok_case _ O) as [(v & X & Hv)|(lv' & nm' & ml & mr & tl & tr & X & Lv & _ & _ & Kl & Kr)]; inv X.
  - change (Node 0%N None (Leaf v) None None) with (@leaf_of E M v). rewrite tree_atoms_leaf.
    change (@nil (atom E level)) with (map (@Elt E level) []). constructor; [apply Hs|reflexivity].
  - rewrite tree_atoms_branch. eapply loc_left; [apply Hn|]. apply Hl, Kl.
Qed.

Lemma focus_end (t : raz_tree E M) (i : Index) : last_is_end -> good t ->
  (forall l r, navigate l r i = Ok (NavRight i)) -> (forall v : list E, split_vec v i = Ok (v, [])) ->
  exists z, rt_focus t i = Ok (Some z) /\ sim z (sz_at (contents t) []) /\ (canonical t -> ordered z).
Proof.
  intros LE G Hn Hs. unfold contents. destruct (rt_tree t) as [tr|] eqn:T.
  - eapply focus_loc; eauto. apply loc_always_right; auto. destruct G as [G _]. now rewrite T in G.
  - destruct (focus_empty t i T) as [-> _]. exists raz_new. destruct (@sim_new E M RM). auto.
Qed.

Lemma focus_start (t : raz_tree E M) (i : Index) : last_is_end -> good t ->
  (forall l r, navigate l r i = Ok (NavLeft i)) -> (forall v : list E, split_vec v i = Ok ([], v)) ->
  exists z, rt_focus t i = Ok (Some z) /\ sim z (sz_at [] (contents t)) /\ (canonical t -> ordered z).
Proof.
  intros LE G Hn Hs. unfold contents. destruct (rt_tree t) as [tr|] eqn:T.
  - eapply focus_loc; eauto. apply loc_always_left; auto. destruct G as [G _]. now rewrite T in G.
  - destruct (focus_empty t i T) as [-> _]. exists raz_new. destruct (@sim_new E M RM). auto.
Qed.

End Ends.

(** ** Count *)
Section Count.
Context {E : Type}.
Notation rtree := (tree (tree_data E count)).
Notation atoms := (list (atom E level)).
Definition n_elts (l : atoms) : N := N.of_nat (length (elts l)).

Lemma n_elts_app (l r : atoms) : n_elts (l ++ r) = (n_elts l + n_elts r)%N.
Proof. unfold n_elts. rewrite elts_app, app_length. lia. Qed.
Lemma n_elts_Elt v : n_elts (map Elt v) = vec_len v.
Proof. unfold n_elts, vec_len. now rewrite elts_map_Elt. Qed.
Lemma n_elts_mark m n (l : atoms) : n_elts (Mark m n :: l) = n_elts l.
Proof. reflexivity. Qed.

Definition is_nil {A} (l : list A) : bool := match l with [] => true | _ => false end.

(** What a branch stores about a child. *)
Lemma count_branch lv nm (t : rtree) m : tree_ok t -> branch_meta lv nm (Some (t_peek t)) = Ok m ->
  (count_n m mod usize_mod = n_elts (tree_atoms (Some t)) mod usize_mod)%N /\
  ((n_elts (tree_atoms (Some t)) < usize_mod)%N -> count_n m = n_elts (tree_atoms (Some t))).
Proof.
  revert lv nm m. induction t as [lv0 nm0 d l r Hl Hr] using tree_induction. intros lv nm m O B.
  destruct (tree_ok_case _ O) as [(v & X & Hv)|(lv' & nm' & ml & mr & tl & tr & X & Lv & Ml & Mr & Kl & Kr)]; inv X.
  - simpl in B. injection B as <-. simpl count_n.
    change (Node 0%N None (Leaf v) None None) with (@leaf_of E count v). rewrite tree_atoms_leaf, n_elts_Elt. auto.
  - simpl in B. injection B as <-. simpl count_n. unfold usize_add.
    rewrite tree_atoms_branch, n_elts_app, n_elts_mark.
    destruct (Hl _ _ _ Kl Ml) as [A1 A2]. destruct (Hr _ _ _ Kr Mr) as [B1 B2]. split.
    + assert (usize_mod <> 0)%N by discriminate.
      rewrite N.mod_mod by assumption. rewrite N.add_mod, A1, B1, <- N.add_mod by assumption. reflexivity.
    + intros Lt. rewrite A2, B2 by lia. apply N.mod_small. exact Lt.
Qed.

Lemma count_meta_acc (t : raz_tree E count) : good t ->
  (count_n (rt_meta t) mod usize_mod = n_elts (contents t) mod usize_mod)%N /\
  ((n_elts (contents t) < usize_mod)%N -> count_n (rt_meta t) = n_elts (contents t)).
Proof.
  intros [O Mt]. unfold contents. destruct (rt_tree t) as [tr|].
  - apply (count_branch 0%N None tr); [exact O|]. simpl in *.
    destruct (t_peek tr); [discriminate|exact Mt|exact Mt].
  - simpl in Mt. injection Mt as <-. auto.
Qed.

Lemma count_last_end : @last_is_end E count (count_meta E).
Proof. intros v. simpl. apply split_at_all. Qed.

Lemma split_count_app i (l r : atoms) : i <= length (elts l) -> 
  split_count i (l ++ r) = (fst (split_count i l), snd (split_count i l) ++ r).
Proof.
  revert i. induction l as [|[e|m n] l IH]; intros i H.
  - simpl in *. destruct i; [|lia]. destruct r; reflexivity.
  - simpl in H. destruct i as [|i]; [reflexivity|]. simpl. rewrite IH by lia.
    destruct (split_count i l). reflexivity.
  - simpl in H. destruct i as [|i]; [reflexivity|]. simpl. rewrite IH by lia.
    destruct (split_count (S i) l). reflexivity.
Qed.

Lemma split_count_over i (l r : atoms) : length (elts l) < i ->
  split_count i (l ++ r) = (l ++ fst (split_count (i - length (elts l)) r), snd (split_count (i - length (elts l)) r)).
Proof.
  revert i. induction l as [|[e|m n] l IH]; intros i H.
  - simpl in *. rewrite Nat.sub_0_r. now destruct (split_count i r).
  - simpl in H. destruct i as [|i]; [lia|]. simpl. rewrite IH by lia. reflexivity.
  - simpl in H. destruct i as [|i]; [lia|]. simpl. rewrite IH by lia. reflexivity.
Qed.

Lemma split_count_mark i m n (l : atoms) : 0 < i ->
  split_count i (Mark m n :: l) = (Mark m n :: fst (split_count i l), snd (split_count i l)).
Proof. destruct i; [lia|]. simpl. now destruct (split_count (S i) l). Qed.

Lemma split_count_Elt i v : split_count i (map (@Elt E level) v) = (map Elt (firstn i v), map Elt (skipn i v)).
Proof.
  revert i. induction v as [|x v IH]; intros [|i]; simpl; auto. now rewrite IH.
Qed.

Lemma split_count_full (l : atoms) e : split_count (length (elts (l ++ [Elt e]))) (l ++ [Elt e]) = (l ++ [Elt e], []).
Proof.
  induction l as [|[x|m n] l IH]; simpl.
  - reflexivity.
  - now rewrite IH.
  - rewrite IH. rewrite elts_app, app_length. simpl. rewrite Nat.add_comm. reflexivity.
Qed.

Lemma loc_count (t : rtree) : tree_ok t -> (n_elts (tree_atoms (Some t)) < usize_mod)%N ->
  forall i, i <= length (elts (tree_atoms (Some t))) -> (N.of_nat i < usize_max)%N ->
  loc t (N.of_nat i) (fst (split_count i (tree_atoms (Some t)))) (snd (split_count i (tree_atoms (Some t)))).
Proof.
  induction t as [lv0 nm0 d l r Hl Hr] using tree_induction. intros O Lt i Hi Mx.
  assert (NM : (N.of_nat i =? usize_max)%N = false) by (apply N.eqb_neq; lia).
  destruct (tree_ok_case _ O) as [(v & X & Hv)|(lv' & nm' & ml & mr & tl & tr & X & Lv & Ml & Mr & Kl & Kr)]; inv X.
  - change (Node 0%N None (Leaf v) None None) with (@leaf_of E count v) in *.
    rewrite tree_atoms_leaf in *. rewrite elts_map_Elt in Hi. rewrite split_count_Elt. simpl.
    constructor; [|apply firstn_skipn]. simpl. rewrite NM, split_at_ok by (unfold vec_len; lia).
    now rewrite Nat2N.id.
  - rewrite tree_atoms_branch in *. rewrite n_elts_app, n_elts_mark in Lt.
    destruct (count_branch _ _ _ _ Kl Ml) as [_ A]. destruct (count_branch _ _ _ _ Kr Mr) as [_ B].
    specialize (A ltac:(lia)). specialize (B ltac:(lia)).
    rewrite elts_app, app_length in Hi. simpl in Hi. simpl in Hl, Hr.
    assert (SM : usize_add (count_n ml) (count_n mr) = (count_n ml + count_n mr)%N).
    { unfold usize_add. apply N.mod_small. lia. }
    assert (Ov : (usize_add (count_n ml) (count_n mr) <? N.of_nat i)%N = false).
    { apply N.ltb_ge. rewrite SM, A, B. unfold n_elts. lia. }
    destruct (Nat.compare_spec i (length (elts (tree_atoms (Some tl))))) as [Eq|Lq|Gq].
    + (* at the archive point *)
      assert (Z : exists l e, tree_atoms (Some tl) = l ++ [Elt e]).
      { destruct (tree_atoms_ends _ Kl) as (_ & e & l & Z). eauto. }
      destruct Z as (l & e & Z).
      rewrite split_count_app by lia. rewrite Eq, Z, split_count_full, <- Z. simpl fst. simpl snd.
      apply loc_here. simpl. unfold count_navigate. rewrite <- Eq, NM, Ov.
      assert (C1 : (count_n ml <? N.of_nat i)%N = false) by (apply N.ltb_ge; rewrite A; unfold n_elts; lia).
      assert (C2 : (N.of_nat i =? count_n ml)%N = true) by (apply N.eqb_eq; rewrite A; unfold n_elts; lia).
      now rewrite C1, C2.
    + rewrite split_count_app by lia. simpl fst. simpl snd.
      eapply loc_left; [|apply Hl; [exact Kl|lia|lia|exact Mx]].
      simpl. unfold count_navigate. rewrite NM, Ov.
      assert (C1 : (count_n ml <? N.of_nat i)%N = false) by (apply N.ltb_ge; rewrite A; unfold n_elts; lia).
      assert (C2 : (N.of_nat i =? count_n ml)%N = false) by (apply N.eqb_neq; rewrite A; unfold n_elts; lia).
      now rewrite C1, C2.
    + rewrite split_count_over by lia. rewrite split_count_mark by lia. simpl fst. simpl snd.
      eapply loc_right; [|apply Hr; [exact Kr|lia|lia|lia]].
      simpl. unfold count_navigate. rewrite NM, Ov.
      assert (C1 : (count_n ml <? N.of_nat i)%N = true) by (apply N.ltb_lt; rewrite A; unfold n_elts; lia).
      rewrite C1. do 2 f_equal. rewrite A. unfold n_elts. lia.
Qed.

Theorem focus_count_sim (t : raz_tree E count) i : good t -> (n_elts (contents t) < usize_mod)%N ->
  i <= length (elts (contents t)) ->
  exists z, rt_focus t (N.of_nat i) = Ok (Some z) /\
    sim z (sz_focus_count i (contents t)) /\ (canonical t -> ordered z).
Proof.
  intros G Lt Hi. unfold sz_focus_count.
  destruct (N.eq_dec (N.of_nat i) usize_max) as [Mx|Mx].
  - (* only possible with 2^64-1 elements *)
    destruct (focus_end t (usize_max : @Index E count (count_meta E)) count_last_end G) as (z & F & S & K).
    { intros l r. simpl. unfold count_navigate. now rewrite N.eqb_refl. }
    { intros v. simpl. apply split_at_all. }
    rewrite Mx. exists z. split; [exact F|]. split; [|exact K].
    assert (Hi' : i = length (elts (contents t))).
    { unfold n_elts, usize_mod, usize_max in *. lia. }
    rewrite Hi'. unfold contents in *. destruct (rt_tree t) as [tr|] eqn:T; [|exact S].
    destruct G as [G _]. rewrite T in G. destruct (tree_atoms_ends _ G) as (_ & e & l & Z).
    rewrite Z in *. rewrite split_count_full. exact S.
  - unfold contents in *. destruct (rt_tree t) as [tr|] eqn:T.
    + destruct (focus_loc t tr (N.of_nat i : @Index E count (count_meta E)) (fst (split_count i (tree_atoms (Some tr)))) (snd (split_count i (tree_atoms (Some tr)))) count_last_end G T) as (z & F & S & K).
      { apply loc_count; auto; [destruct G as [G _]; now rewrite T in G|].
        unfold n_elts, usize_mod, usize_max in *. lia. }
      exists z. split; [exact F|]. split; [|exact K].
      destruct (split_count i (tree_atoms (Some tr))). exact S.
    + destruct (focus_empty t (N.of_nat i : @Index E count (count_meta E)) T) as [-> _]. exists raz_new.
      destruct (@sim_new E count (count_meta E)). split; [reflexivity|]. split; [|auto].
      simpl in Hi. destruct i; [|lia]. exact H.
Qed.

(** Too large an index. *)
Theorem focus_count_over (t : raz_tree E count) (i : N) : good t -> (n_elts (contents t) < usize_mod)%N ->
  (n_elts (contents t) < i)%N -> i <> usize_max -> contents t <> [] ->
  rt_focus t i = (if is_nil (marks (contents t)) then Panic "split_at: mid > len" else Ok None).
Proof.
  intros [G _] Lt Gt Mx Ne. unfold contents, rt_focus in *. destruct (rt_tree t) as [tr|]; [|now elim Ne].
  assert (NM : (i =? usize_max)%N = false) by now apply N.eqb_neq. simpl in G.
  destruct (tree_ok_case _ G) as [(v & -> & Hv)|(lv' & nm' & ml & mr & tl & tr' & -> & Lv & Ml & Mr & Kl & Kr)].
  - rewrite tree_atoms_leaf in *. rewrite marks_map_Elt. cbn. rewrite NM.
    rewrite n_elts_Elt in Gt. unfold split_at. unfold vec_len in Gt. apply N.ltb_lt in Gt. now rewrite Gt.
  - rewrite tree_atoms_branch in *. rewrite n_elts_app, n_elts_mark in Lt, Gt.
    destruct (count_branch _ _ _ _ Kl Ml) as [_ A]. destruct (count_branch _ _ _ _ Kr Mr) as [_ B].
    specialize (A ltac:(lia)). specialize (B ltac:(lia)).
    assert (Ov : (usize_add (count_n ml) (count_n mr) <? i)%N = true).
    { apply N.ltb_lt. unfold usize_add. rewrite N.mod_small by lia. lia. }
    assert (IM : is_nil (marks (tree_atoms (Some tl) ++ Mark lv' nm' :: tree_atoms (Some tr'))) = false).
    { rewrite marks_app. now destruct (marks (tree_atoms (Some tl))). }
    rewrite IM. cbn. unfold count_navigate. now rewrite NM, Ov.
Qed.

End Count.

(** ** Names *)
Section Names.
Context {E : Type}.
Notation rtree := (tree (tree_data E names)).
Notation atoms := (list (atom E level)).
(** The names of the archive points, in order. *)
Definition point_names (l : atoms) : list name :=
  flat_map (fun p => match snd p with Some n => [n] | None => [] end) (marks l).

Lemma point_names_app (l r : atoms) : point_names (l ++ r) = point_names l ++ point_names r.
Proof. unfold point_names. rewrite marks_app. apply flat_map_app. Qed.
Lemma point_names_mark m n (l : atoms) :
  point_names (Mark m n :: l) = match n with Some n => [n] | None => [] end ++ point_names l.
Proof. reflexivity. Qed.
Lemma point_names_Elt v : point_names (map Elt v) = [].
Proof. unfold point_names. now rewrite marks_map_Elt. Qed.

Lemma name_eqb_eq a b : name_eqb a b = true <-> a = b.
Proof. unfold name_eqb. destruct (name_eq_dec a b); intuition congruence. Qed.
Lemma contains_key_In s n : contains_key s n = true <-> In n s.
Proof.
  unfold contains_key. rewrite existsb_exists. split.
  - intros (x & Hx & Hn). apply name_eqb_eq in Hn. now subst.
  - intros H. exists n. split; auto. now apply name_eqb_eq.
Qed.
Lemma contains_key_not s n : contains_key s n = false <-> ~ In n s.
Proof. rewrite <- contains_key_In. now destruct (contains_key s n). Qed.
Lemma key_insert_In k s n : In n (key_insert k s) <-> n = k \/ In n s.
Proof.
  unfold key_insert. destruct (contains_key s k) eqn:C; [|simpl; intuition].
  apply contains_key_In in C. intuition. now subst.
Qed.
Lemma key_insert_nodup k s : NoDup s -> NoDup (key_insert k s).
Proof.
  unfold key_insert. destruct (contains_key s k) eqn:C; [auto|]. intros H. constructor; auto.
  now apply contains_key_not.
Qed.
Lemma keys_insert_In ks s n : In n (fold_left (fun h k => key_insert k h) ks s) <-> In n ks \/ In n s.
Proof.
  revert s. induction ks as [|k ks IH]; intros s; simpl; [intuition|].
  rewrite IH, key_insert_In. intuition.
Qed.
Lemma keys_insert_nodup ks s : NoDup s -> NoDup (fold_left (fun h k => key_insert k h) ks s).
Proof. revert s. induction ks as [|k ks IH]; intros s H; simpl; auto. apply IH, key_insert_nodup, H. Qed.
Lemma oinsert_In o s n : In n (oinsert o s) <-> o = Some n \/ In n s.
Proof.
  destruct o as [k|]; simpl.
  - rewrite key_insert_In. intuition congruence.
  - intuition congruence.
Qed.
Lemma oinsert_nodup o s : NoDup s -> NoDup (oinsert o s).
Proof. destruct o; simpl; [apply key_insert_nodup|auto]. Qed.

Lemma names_branch lv nm (t : rtree) m : tree_ok t -> branch_meta lv nm (Some (t_peek t)) = Ok m ->
  forall n, In n (names_keys m) <-> nm = Some n \/ In n (point_names (tree_atoms (Some t))).
Proof.
  revert lv nm m. induction t as [lv0 nm0 d l r Hl Hr] using tree_induction. intros lv nm m O B n.
  destruct (tree_ok_case _ O) as [(v & X & Hv)|(lv' & nm' & ml & mr & tl & tr & X & Lv & Ml & Mr & Kl & Kr)]; inv X.
  - simpl in B. injection B as <-. simpl names_keys.
    change (Node 0%N None (Leaf v) None None) with (@leaf_of E names v).
    rewrite tree_atoms_leaf, point_names_Elt, oinsert_In. reflexivity.
  - simpl in B. injection B as <-. simpl names_keys.
    rewrite tree_atoms_branch, point_names_app, point_names_mark, !in_app_iff.
    rewrite oinsert_In, !keys_insert_In. rewrite (Hl _ _ _ Kl Ml), (Hr _ _ _ Kr Mr).
    assert (X : In n match nm' with Some n => [n] | None => [] end <-> nm' = Some n).
    { destruct nm' as [k|]; simpl; [|intuition congruence]. split; [intros [->|[]]; reflexivity|intros X; left; congruence]. }
    rewrite X. simpl. intuition.
Qed.

Lemma names_meta_acc (t : raz_tree E names) : good t ->
  forall n, In n (names_keys (rt_meta t)) <-> In n (point_names (contents t)).
Proof.
  intros [O Mt] n. unfold contents. destruct (rt_tree t) as [tr|].
  - rewrite (names_branch 0%N None tr (rt_meta t) O); [intuition; discriminate|]. simpl in *.
    destruct (t_peek tr); [discriminate|exact Mt|exact Mt].
  - simpl in Mt. injection Mt as <-. reflexivity.
Qed.

Lemma names_meta_nodup (t : raz_tree E names) : good t -> NoDup (names_keys (rt_meta t)).
Proof.
  intros [O Mt]. destruct (rt_tree t) as [tr|].
  - simpl in Mt. destruct (t_peek tr); try discriminate; injection Mt as <-; simpl.
    + repeat apply keys_insert_nodup. constructor.
    + constructor.
  - simpl in Mt. injection Mt as <-. constructor.
Qed.

Lemma names_last_end : @last_is_end E names (names_meta E).
Proof. intros v. simpl. apply split_at_all. Qed.

Lemma split_name_absent n (l : atoms) : ~ In n (point_names l) -> split_name n l = None.
Proof.
  induction l as [|[e|m k] l IH]; simpl; auto.
  - intros H. now rewrite IH.
  - rewrite point_names_mark, in_app_iff. intros H. destruct (oname_eq_dec k (Some n)).
    + subst. simpl in H. tauto.
    + now rewrite IH by tauto.
Qed.
Lemma split_name_left n (l r : atoms) p q : split_name n l = Some (p, q) -> split_name n (l ++ r) = Some (p, q ++ r).
Proof.
  revert p q. induction l as [|[e|m k] l IH]; intros p q; simpl; [discriminate| |].
  - destruct (split_name n l) as [[p' q']|]; simpl; intros X; [|discriminate]. injection X as <- <-.
    now rewrite (IH _ _ eq_refl).
  - destruct (oname_eq_dec k (Some n)); [intros X; now injection X as <- <-|].
    destruct (split_name n l) as [[p' q']|]; simpl; intros X; [|discriminate]. injection X as <- <-.
    now rewrite (IH _ _ eq_refl).
Qed.
Lemma split_name_right n (l r : atoms) : ~ In n (point_names l) ->
  split_name n (l ++ r) = option_map (fun p => (l ++ fst p, snd p)) (split_name n r).
Proof.
  induction l as [|[e|m k] l IH]; simpl.
  - intros _. now destruct (split_name n r) as [[]|].
  - intros H. rewrite IH by auto. destruct (split_name n r); reflexivity.
  - rewrite point_names_mark, in_app_iff. intros H. destruct (oname_eq_dec k (Some n)).
    + subst. simpl in H. tauto.
    + rewrite IH by tauto. destruct (split_name n r); reflexivity.
Qed.
Lemma split_name_present n (l : atoms) : In n (point_names l) -> exists p q, split_name n l = Some (p, q).
Proof.
  induction l as [|[e|m k] l IH]; simpl; [intros []| |].
  - intros H. destruct (IH H) as (p & q & ->). simpl. eauto.
  - rewrite point_names_mark, in_app_iff. intros H. destruct (oname_eq_dec k (Some n)); [eauto|].
    destruct IH as (p & q & ->); [|simpl; eauto]. destruct H as [H|H]; auto.
    destruct k; simpl in H; [|tauto]. destruct H as [->|[]]. now elim n0.
Qed.

Notation once n l := (count_occ name_eq_dec (point_names l) n = 1).

Lemma loc_names (t : rtree) n : tree_ok t -> once n (tree_atoms (Some t)) ->
  exists p q, split_name n (tree_atoms (Some t)) = Some (p, q) /\ loc t (PCenter n : @Index E names _) p q.
Proof.
  induction t as [lv0 nm0 d l r Hl Hr] using tree_induction. intros O Un.
  destruct (tree_ok_case _ O) as [(v & X & Hv)|(lv' & nm' & ml & mr & tl & tr & X & Lv & Ml & Mr & Kl & Kr)]; inv X.
  - change (Node 0%N None (Leaf v) None None) with (@leaf_of E names v) in *.
    rewrite tree_atoms_leaf, point_names_Elt in Un. discriminate.
  - rewrite tree_atoms_branch in *. rewrite point_names_app, point_names_mark, !count_occ_app in Un.
    simpl in Hl, Hr.
    pose proof (names_branch _ _ _ _ Kl Ml n) as A. pose proof (names_branch _ _ _ _ Kr Mr n) as B.
    assert (NI : forall l, ~ In n l <-> count_occ name_eq_dec l n = 0) by (intros; apply count_occ_not_In).
    assert (IN : forall l, In n l <-> count_occ name_eq_dec l n > 0) by (intros; apply count_occ_In).
    destruct (oname_eq_dec nm' (Some n)) as [->|Nm].
    + simpl in Un. destruct (name_eq_dec n n); [|congruence].
      rewrite split_name_right by (apply NI; lia). cbn [split_name].
      destruct (oname_eq_dec (Some n) (Some n)); [|congruence]. cbn [option_map fst snd]. rewrite app_nil_r.
      do 2 eexists. split; [reflexivity|]. apply loc_here. simpl.
      assert (CL : contains_key (names_keys ml) n = true) by (apply contains_key_In, A; auto).
      assert (CR : contains_key (names_keys mr) n = true) by (apply contains_key_In, B; auto).
      now rewrite CL, CR.
    + assert (Z : count_occ name_eq_dec match nm' with Some n => [n] | None => [] end n = 0).
      { apply NI. destruct nm'; simpl; intuition. congruence. }
      rewrite Z in Un.
      destruct (count_occ name_eq_dec (point_names (tree_atoms (Some tl))) n) eqn:CL.
      * simpl in Un. destruct (Hr Kr Un) as (p & q & Sp & L).
        rewrite split_name_right by now apply NI. cbn [split_name]. destruct (oname_eq_dec nm' (Some n)); [congruence|].
        rewrite Sp. cbn [option_map fst snd]. do 2 eexists. split; [reflexivity|]. eapply loc_right; [|exact L]. simpl.
        assert (C1 : contains_key (names_keys ml) n = false).
        { apply contains_key_not. rewrite A. apply NI in CL. tauto. }
        assert (C2 : contains_key (names_keys mr) n = true).
        { apply contains_key_In, B. right. apply IN. lia. }
        now rewrite C1, C2.
      * assert (n0 = 0) by lia. subst n0. destruct (Hl Kl eq_refl) as (p & q & Sp & L).
        rewrite (split_name_left _ _ _ _ _ Sp). do 2 eexists. split; [reflexivity|].
        eapply loc_left; [|exact L]. simpl.
        assert (C1 : contains_key (names_keys ml) n = true).
        { apply contains_key_In, A. right. apply IN. lia. }
        assert (C2 : contains_key (names_keys mr) n = false).
        { apply contains_key_not. rewrite B. intros [X|X]; [congruence|]. apply IN in X. lia. }
        now rewrite C1, C2.
Qed.

Theorem focus_name_sim (t : raz_tree E names) n : good t -> once n (contents t) ->
  exists z p q, split_name n (contents t) = Some (p, q) /\ rt_focus t (PCenter n) = Ok (Some z) /\
    sim z (sz_at p q) /\ (canonical t -> ordered z).
Proof.
  intros G Un. unfold contents in *. destruct (rt_tree t) as [tr|] eqn:T; [|discriminate].
  destruct (loc_names tr n) as (p & q & Sp & L); auto.
  { destruct G as [G _]. now rewrite T in G. }
  destruct (focus_loc t tr _ p q names_last_end G T L) as (z & F & S & K). eauto 8.
Qed.

Theorem focus_name_absent (t : raz_tree E names) n : good t -> ~ In n (point_names (contents t)) ->
  contents t <> [] ->
  rt_focus t (PCenter n) =
    (if is_nil (marks (contents t)) then Panic "There are no names in this region" else Ok None).
Proof.
  intros [G _] Ab Ne. unfold contents, rt_focus in *. destruct (rt_tree t) as [tr|]; [|now elim Ne].
  simpl in G.
  destruct (tree_ok_case _ G) as [(v & -> & Hv)|(lv' & nm' & ml & mr & tl & tr' & -> & Lv & Ml & Mr & Kl & Kr)].
  - rewrite tree_atoms_leaf in *. rewrite marks_map_Elt. reflexivity.
  - rewrite tree_atoms_branch in *. rewrite point_names_app, point_names_mark, !in_app_iff in Ab.
    assert (N1 : nm' <> Some n) by (intros ->; simpl in Ab; tauto).
    assert (C1 : contains_key (names_keys ml) n = false).
    { apply contains_key_not. rewrite (names_branch _ _ _ _ Kl Ml). tauto. }
    assert (C2 : contains_key (names_keys mr) n = false).
    { apply contains_key_not. rewrite (names_branch _ _ _ _ Kr Mr). tauto. }
    assert (IM : is_nil (marks (tree_atoms (Some tl) ++ Mark lv' nm' :: tree_atoms (Some tr'))) = false).
    { rewrite marks_app. now destruct (marks (tree_atoms (Some tl))). }
    rewrite IM. cbn. now rewrite C1, C2.
Qed.

End Names.

(** ** The two ends *)
Section Positions.
Context {E : Type}.
Lemma unit_last_end : @last_is_end E unit (unit_meta E).
Proof. intros v. simpl. apply split_at_all. Qed.

Lemma unit_focus_right (t : raz_tree E unit) : good t ->
  exists z, rt_focus t PRight = Ok (Some z) /\ sim z (sz_at (contents t) []) /\ (canonical t -> ordered z).
Proof. intros G. apply (focus_end t ((PRight : position unit) : @Index E unit (unit_meta E)) unit_last_end G); [reflexivity|]. intros v. apply split_at_all. Qed.
Lemma unit_focus_left (t : raz_tree E unit) : good t ->
  exists z, rt_focus t PLeft = Ok (Some z) /\ sim z (sz_at [] (contents t)) /\ (canonical t -> ordered z).
Proof. intros G. apply (focus_start t ((PLeft : position unit) : @Index E unit (unit_meta E)) unit_last_end G); [reflexivity|]. intros v. apply split_at_none. Qed.
Lemma unit_focus_center (t : raz_tree E unit) u : good t -> contents t <> [] ->
  rt_focus t (PCenter u) = Panic "Invalid position".
Proof.
  intros [G _] Ne. unfold contents, rt_focus in *. destruct (rt_tree t) as [tr|]; [|now elim Ne].
  simpl in G.
  destruct (tree_ok_case _ G) as [(v & -> & Hv)|(lv' & nm' & ml & mr & tl & tr' & -> & _)]; reflexivity.
Qed.

Lemma names_focus_right (t : raz_tree E names) : good t ->
  exists z, rt_focus t PRight = Ok (Some z) /\ sim z (sz_at (contents t) []) /\ (canonical t -> ordered z).
Proof. intros G. apply (focus_end t ((PRight : position name) : @Index E names (names_meta E)) names_last_end G); [reflexivity|]. intros v. apply split_at_all. Qed.
Lemma names_focus_left (t : raz_tree E names) : good t ->
  exists z, rt_focus t PLeft = Ok (Some z) /\ sim z (sz_at [] (contents t)) /\ (canonical t -> ordered z).
Proof. intros G. apply (focus_start t ((PLeft : position name) : @Index E names (names_meta E)) names_last_end G); [reflexivity|]. intros v. apply split_at_none. Qed.

Lemma count_focus_last (t : raz_tree E count) : good t ->
  exists z, rt_focus t usize_max = Ok (Some z) /\ sim z (sz_at (contents t) []) /\ (canonical t -> ordered z).
Proof.
  intros G. apply (focus_end t (usize_max : @Index E count (count_meta E)) count_last_end G).
  - intros l r. simpl. unfold count_navigate. now rewrite N.eqb_refl.
  - intros v. simpl. apply split_at_all.
Qed.

End Positions.
