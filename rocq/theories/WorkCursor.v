(** * Moves made by the cursor operations. *)

From Verif Require Import Base BaseFacts Spec SpecRaz StackModel AStackModel LevelTreeModel TreeCursorModel RazMetaModel
  RazModel TreeSpec TreeProofs CursorProofs RazView RazProofs RazScripts StackProofs MemoSpec RazPath WorkModel WorkFacts.

Ltac wstep H := apply wbind_Ok in H; let n1 := fresh "n" in let a := fresh "a" in let n2 := fresh "n" in
  let H1 := fresh "W" in destruct H as (n1 & a & n2 & H1 & H & ->).

Section Moves.
Context {A : Type} {TU : TreeUpdate A}.
Implicit Types (c : cursor A).

Lemma up_ok c u c' : up c = Ok (u, c') ->
  if up_failed u then c' = c /\ l_forest c = [] /\ r_forest c = [] else forest_len c = S (forest_len c').
Proof.
  unfold up. destruct (up_to_left c) as [b|] eqn:P.
  - destruct b.
    + destruct (l_forest c) as [|[d ut] lf] eqn:L; [discriminate|]. destruct (dirty c).
      * destruct (rebuild _ _ _ _ _); cbn; intros H; inv H. cbn. unfold forest_len. rewrite L. cbn. lia.
      * intros H; inv H. cbn. unfold forest_len. rewrite L. cbn. lia.
    + destruct (r_forest c) as [|[d ut] lf] eqn:L; [discriminate|]. destruct (dirty c).
      * destruct (rebuild _ _ _ _ _); cbn; intros H; inv H. cbn. unfold forest_len. rewrite L. cbn. lia.
      * intros H; inv H. cbn. unfold forest_len. rewrite L. cbn. lia.
  - intros H; inv H. cbn. rewrite up_to_left_pick in P. apply pick_none in P. tauto.
Qed.

Lemma up_or_panic_moves c n c' : w_up_or_panic c = Ok (n, c') -> n = 1 /\ forest_len c = S (forest_len c').
Proof.
  intros H. unfold w_up_or_panic in H. wstep H. destruct a as [u c1]. wstep H. apply wret_Ok in H. destruct H as (<- & ->).
  apply free_Ok in W0. destruct W0 as (Q & ->). unfold w_up in W. apply move_Ok in W. destruct W as (U & ->).
  apply up_ok in U. destruct (up_failed u); [discriminate|]. auto.
Qed.

Lemma up_all_moves c n c' : w_up_all c = Ok (n, c') -> n = S (forest_len c).
Proof.
  intros H.
  apply (wloop_inv (fun k s => k + forest_len s = forest_len c) (fun k _ => k = S (forest_len c))) with (n := 0) in H; [exact H| |lia].
  clear. intros n s k x I H. wstep H. destruct a as [u c']. unfold w_up in W. apply move_Ok in W. destruct W as (U & ->).
  apply wret_Ok in H. destruct H as (<- & ->). apply up_ok in U. destruct (up_failed u).
  - destruct U as (-> & L & R). unfold forest_len in *. rewrite L, R in I. cbn in *. lia.
  - lia.
Qed.

Lemma clear_right_moves c n c' : w_clear_right c = Ok (n, c') -> n + forest_len c' = forest_len c.
Proof.
  intros H.
  apply (wloop_inv (fun k s => k + forest_len s = forest_len c) (fun k s => k + forest_len s = forest_len c)) with (n := 0) in H; [exact H| |lia].
  clear. intros n s k x I H. destruct (r_forest s).
  - apply wret_Ok in H. destruct H as (<- & ->). lia.
  - wstep H. apply wret_Ok in H. destruct H as (<- & ->). apply up_or_panic_moves in W. lia.
Qed.
Lemma clear_left_moves c n c' : w_clear_left c = Ok (n, c') -> n + forest_len c' = forest_len c.
Proof.
  intros H.
  apply (wloop_inv (fun k s => k + forest_len s = forest_len c) (fun k s => k + forest_len s = forest_len c)) with (n := 0) in H; [exact H| |lia].
  clear. intros n s k x I H. destruct (l_forest s).
  - apply wret_Ok in H. destruct H as (<- & ->). lia.
  - wstep H. apply wret_Ok in H. destruct H as (<- & ->). apply up_or_panic_moves in W. lia.
Qed.
Lemma clear_right_none c : r_forest c = [] -> w_clear_right c = Ok (0, c).
Proof. intros R. unfold w_clear_right. cbn [wloop]. now rewrite R. Qed.
Lemma clear_left_none c : l_forest c = [] -> w_clear_left c = Ok (0, c).
Proof. intros R. unfold w_clear_left. cbn [wloop]. now rewrite R. Qed.

Lemma left_up_none lev c : hd_le lev (l_forest c) -> w_left_up lev c = Ok (0, c).
Proof.
  intros H. unfold w_left_up. cbn [wloop]. unfold up_left_level. destruct (l_forest c) as [|[d t] f]; [reflexivity|].
  cbn [hd_le] in H. apply N.leb_le in H. now rewrite H.
Qed.
Lemma right_up_none lev c : hd_lt lev (r_forest c) -> w_right_up lev c = Ok (0, c).
Proof.
  intros H. unfold w_right_up. cbn [wloop]. unfold up_right_level. destruct (r_forest c) as [|[d t] f]; [reflexivity|].
  cbn [hd_lt] in H. apply N.ltb_lt in H. now rewrite H.
Qed.
Lemma left_down_none lev c : lev_lt (c_tree c) lev -> w_left_down lev c = Ok (0, c).
Proof.
  intros H. unfold w_left_down. cbn [wloop]. unfold peek_level. destruct (c_tree c) as [t|]; [|reflexivity].
  cbn [option_map]. cbn in H. apply N.ltb_lt in H. now rewrite H.
Qed.
Lemma right_down_none lev c : lev_le (c_tree c) lev -> w_right_down lev c = Ok (0, c).
Proof.
  intros H. unfold w_right_down. cbn [wloop]. unfold peek_level. destruct (c_tree c) as [t|]; [|reflexivity].
  cbn [option_map]. cbn in H. apply N.leb_le in H. now rewrite H.
Qed.

(** Going up in [join] either does nothing or stops below the level. *)
Lemma left_up_moves lev c n c' : r_forest c = [] -> w_left_up lev c = Ok (n, c') ->
  n + forest_len c' = forest_len c /\ (n = 0 /\ c' = c \/ lev_lt (c_tree c') lev).
Proof.
  intros R H.
  apply (wloop_inv (fun k s => r_forest s = [] /\ k + forest_len s = forest_len c /\ (k = 0 /\ s = c \/ lev_lt (c_tree s) lev))
    (fun k s => k + forest_len s = forest_len c /\ (k = 0 /\ s = c \/ lev_lt (c_tree s) lev))) with (n := 0) in H; [exact H| |auto].
  clear. intros n s k x (R & I & D) H. destruct (up_left_level s) as [h|] eqn:U.
  - destruct (lev <=? h)%N eqn:Le.
    + apply wret_Ok in H. destruct H as (<- & ->). rewrite Nat.add_0_r. auto.
    + wstep H. apply wret_Ok in H. destruct H as (<- & ->).
      assert (V := W). apply forget_Ok in V. rewrite up_or_panic_same in V.
      apply up_or_panic_moves in W. destruct W as (-> & F).
      unfold up_or_panic in V. apply bind_Ok in V. destruct V as ([u c1] & V & X). apply bind_Ok in X. destruct X as (? & _ & X). injection X as ->.
      unfold up_left_level in U. destruct (l_forest s) as [|[d t] f] eqn:L; [discriminate|]. injection U as <-.
      assert (T : r_forest a = [] /\ lev_lt (c_tree a) lev).
      { apply N.leb_gt in Le. unfold up, up_to_left in V. rewrite L, R in V. destruct (dirty s).
        - destruct (rebuild _ _ _ _ _); cbn in V; inv V. cbn. rewrite tree_new_eq. cbn. auto.
        - inv V. cbn. auto. }
      split; [tauto|]. split; [lia|]. right. tauto.
  - apply wret_Ok in H. destruct H as (<- & ->). rewrite Nat.add_0_r. auto.
Qed.
Lemma right_up_moves lev c n c' : l_forest c = [] -> w_right_up lev c = Ok (n, c') ->
  n + forest_len c' = forest_len c /\ (n = 0 /\ c' = c \/ lev_le (c_tree c') lev).
Proof.
  intros R H.
  apply (wloop_inv (fun k s => l_forest s = [] /\ k + forest_len s = forest_len c /\ (k = 0 /\ s = c \/ lev_le (c_tree s) lev))
    (fun k s => k + forest_len s = forest_len c /\ (k = 0 /\ s = c \/ lev_le (c_tree s) lev))) with (n := 0) in H; [exact H| |auto].
  clear. intros n s k x (R & I & D) H. destruct (up_right_level s) as [h|] eqn:U.
  - destruct (lev <? h)%N eqn:Le.
    + apply wret_Ok in H. destruct H as (<- & ->). rewrite Nat.add_0_r. auto.
    + wstep H. apply wret_Ok in H. destruct H as (<- & ->).
      assert (V := W). apply forget_Ok in V. rewrite up_or_panic_same in V.
      apply up_or_panic_moves in W. destruct W as (-> & F).
      unfold up_or_panic in V. apply bind_Ok in V. destruct V as ([u c1] & V & X). apply bind_Ok in X. destruct X as (? & _ & X). injection X as ->.
      unfold up_right_level in U. destruct (r_forest s) as [|[d t] f] eqn:L; [discriminate|]. injection U as <-.
      assert (T : l_forest a = [] /\ lev_le (c_tree a) lev).
      { apply N.ltb_ge in Le. unfold up, up_to_left in V. rewrite L, R in V. destruct (dirty s).
        - destruct (rebuild _ _ _ _ _); cbn in V; inv V. cbn. rewrite tree_new_eq. cbn. auto.
        - inv V. cbn. auto. }
      split; [tauto|]. split; [lia|]. right. tauto.
  - apply wret_Ok in H. destruct H as (<- & ->). rewrite Nat.add_0_r. auto.
Qed.

Definition flat_right (lev : level) c : Prop := match c_tree c with Some t => lev_lt (t_right t) lev | None => True end.
Definition flat_left (lev : level) c : Prop := match c_tree c with Some t => lev_le (t_left t) lev | None => True end.

Lemma down_right_yes c b c' : down_right_force ForceYes c = (b, c') -> b = true ->
  exists t, c_tree c = Some t /\ c_tree c' = t_right t /\ length (l_forest c') = S (length (l_forest c)) /\ r_forest c' = r_forest c.
Proof.
  unfold down_right_force. destruct (c_tree c) as [t|]; [|intros H ->; inv H]. intros H _.
  exists t. split; [reflexivity|]. destruct (t_right t); inv H; auto.
Qed.
Lemma down_left_yes c b c' : down_left_force ForceYes c = (b, c') -> b = true ->
  exists t, c_tree c = Some t /\ c_tree c' = t_left t /\ length (r_forest c') = S (length (r_forest c)) /\ l_forest c' = l_forest c.
Proof.
  unfold down_left_force. destruct (c_tree c) as [t|]; [|intros H ->; inv H]. intros H _.
  exists t. split; [reflexivity|]. destruct (t_left t); inv H; auto.
Qed.

Lemma left_down_moves lev c n c' : w_left_down lev c = Ok (n, c') ->
  length (l_forest c') = length (l_forest c) + n /\ r_forest c' = r_forest c /\ (flat_right lev c -> n <= 1).
Proof.
  intros H.
  apply (wloop_inv (fun k s => length (l_forest s) = length (l_forest c) + k /\ r_forest s = r_forest c /\
      (flat_right lev c -> k = 0 /\ s = c \/ k = 1 /\ lev_lt (c_tree s) lev))
    (fun k s => length (l_forest s) = length (l_forest c) + k /\ r_forest s = r_forest c /\ (flat_right lev c -> k <= 1))) with (n := 0) in H; [exact H| |].
  - clear. intros n s k x (I1 & I2 & D) H.
    assert (Done : forall r, wret (@inr (cursor A) (cursor A) s) = Ok (k, r) -> r = x -> match x with inl _ => True | inr r => length (l_forest r) = length (l_forest c) + (n + k) /\ r_forest r = r_forest c /\ (flat_right lev c -> n + k <= 1) end).
    { intros r X <-. apply wret_Ok in X. destruct X as (<- & ->). split; [lia|]. split; [exact I2|]. intros Fl. destruct (D Fl) as [[-> _]|[-> _]]; lia. }
    destruct (peek_level s) as [h|] eqn:U.
    + destruct (h <? lev)%N eqn:Le.
      * specialize (Done _ H eq_refl). apply wret_Ok in H. destruct H as (<- & _). exact Done.
      * wstep H. destruct a as [b s']. wstep H. apply wret_Ok in H. destruct H as (<- & ->).
        apply free_Ok in W0. destruct W0 as (Q & ->). destruct b; [|discriminate].
        unfold w_down_right_force in W. apply move_Ok in W. destruct W as (W & ->). injection W as W.
        destruct (down_right_yes _ _ _ W eq_refl) as (t & T & T' & L' & R').
        split; [lia|]. split; [congruence|]. intros Fl. right. unfold peek_level in U. rewrite T in U. injection U as <-.
        destruct (D Fl) as [[-> ->]|[-> X]].
        -- split; [reflexivity|]. rewrite T'. unfold flat_right in Fl. now rewrite T in Fl.
        -- rewrite T in X. cbn in X. apply N.ltb_ge in Le. lia.
    + specialize (Done _ H eq_refl). apply wret_Ok in H. destruct H as (<- & _). exact Done.
  - split; [lia|]. auto.
Qed.
Lemma right_down_moves lev c n c' : w_right_down lev c = Ok (n, c') ->
  length (r_forest c') = length (r_forest c) + n /\ l_forest c' = l_forest c /\ (flat_left lev c -> n <= 1).
Proof.
  intros H.
  apply (wloop_inv (fun k s => length (r_forest s) = length (r_forest c) + k /\ l_forest s = l_forest c /\
      (flat_left lev c -> k = 0 /\ s = c \/ k = 1 /\ lev_le (c_tree s) lev))
    (fun k s => length (r_forest s) = length (r_forest c) + k /\ l_forest s = l_forest c /\ (flat_left lev c -> k <= 1))) with (n := 0) in H; [exact H| |].
  - clear. intros n s k x (I1 & I2 & D) H.
    assert (Done : forall r, wret (@inr (cursor A) (cursor A) s) = Ok (k, r) -> r = x -> match x with inl _ => True | inr r => length (r_forest r) = length (r_forest c) + (n + k) /\ l_forest r = l_forest c /\ (flat_left lev c -> n + k <= 1) end).
    { intros r X <-. apply wret_Ok in X. destruct X as (<- & ->). split; [lia|]. split; [exact I2|]. intros Fl. destruct (D Fl) as [[-> _]|[-> _]]; lia. }
    destruct (peek_level s) as [h|] eqn:U.
    + destruct (h <=? lev)%N eqn:Le.
      * specialize (Done _ H eq_refl). apply wret_Ok in H. destruct H as (<- & _). exact Done.
      * wstep H. destruct a as [b s']. wstep H. apply wret_Ok in H. destruct H as (<- & ->).
        apply free_Ok in W0. destruct W0 as (Q & ->). destruct b; [|discriminate].
        unfold w_down_left_force in W. apply move_Ok in W. destruct W as (W & ->). injection W as W.
        destruct (down_left_yes _ _ _ W eq_refl) as (t & T & T' & L' & R').
        split; [lia|]. split; [congruence|]. intros Fl. right. unfold peek_level in U. rewrite T in U. injection U as <-.
        destruct (D Fl) as [[-> ->]|[-> X]].
        -- split; [reflexivity|]. rewrite T'. unfold flat_left in Fl. now rewrite T in Fl.
        -- rewrite T in X. cbn in X. apply N.leb_gt in Le. lia.
    + specialize (Done _ H eq_refl). apply wret_Ok in H. destruct H as (<- & _). exact Done.
  - split; [lia|]. auto.
Qed.

Lemma down_right_all_moves c n c' : w_down_right_all c = Ok (n, c') ->
  S (length (l_forest c')) = length (l_forest c) + n /\ r_forest c' = r_forest c.
Proof.
  intros H.
  apply (wloop_inv (fun k s => length (l_forest s) = length (l_forest c) + k /\ r_forest s = r_forest c)
    (fun k s => S (length (l_forest s)) = length (l_forest c) + k /\ r_forest s = r_forest c)) with (n := 0) in H; [exact H| |split; [lia|reflexivity]].
  clear. intros n s k x (I1 & I2) H. wstep H. destruct a as [b s']. apply wret_Ok in H. destruct H as (<- & ->).
  unfold w_down_right, w_down_right_force in W. apply move_Ok in W. destruct W as (W & ->). injection W as W.
  unfold down_right_force in W. destruct (c_tree s) as [t|]; [|inv W; split; [lia|assumption]].
  destruct (t_right t); inv W; cbn; split; try lia; assumption.
Qed.
Lemma down_left_all_moves c n c' : w_down_left_all c = Ok (n, c') ->
  S (length (r_forest c')) = length (r_forest c) + n /\ l_forest c' = l_forest c.
Proof.
  intros H.
  apply (wloop_inv (fun k s => length (r_forest s) = length (r_forest c) + k /\ l_forest s = l_forest c)
    (fun k s => S (length (r_forest s)) = length (r_forest c) + k /\ l_forest s = l_forest c)) with (n := 0) in H; [exact H| |split; [lia|reflexivity]].
  clear. intros n s k x (I1 & I2) H. wstep H. destruct a as [b s']. apply wret_Ok in H. destruct H as (<- & ->).
  unfold w_down_left, w_down_left_force in W. apply move_Ok in W. destruct W as (W & ->). injection W as W.
  unfold down_left_force in W. destruct (c_tree s) as [t|]; [|inv W; split; [lia|assumption]].
  destruct (t_left t); inv W; cbn; split; try lia; assumption.
Qed.
End Moves.

Section Join.
Context {E M : Type} {RM : RazMeta E M}.
Notation rtree := (tree (tree_data E M)).
Notation rcursor := (cursor (tree_data E M)).
Notation atoms := (list (atom E level)).
Notation WN := (@node_ok E M RM).
Notation obs := (@item_atoms E M).
Notation cwf := (cwf WN branchy present).
Notation corder := (@corder (tree_data E M)).
Notation cobs := (cobs obs).

Lemma marks_forest_right f : Forall (rf_item WN branchy present) f -> length f <= length (marks (rf_obs obs f)).
Proof.
  induction f as [|[d t] f IH]; intros F; [cbn; lia|]. inversion F as [|? ? (Br & _) F']; subst. cbn [snd] in Br.
  cbn [rf_obs length]. rewrite (branchy_obs _ _ _ Br). cbn [app marks length]. rewrite marks_app, app_length. specialize (IH F'). lia.
Qed.
Lemma seen_marks (l : atoms) : seen_from_right l <= length (marks l).
Proof. induction l as [|[e|m n] l IH]; cbn; [lia|exact IH|]. destruct (forallb _ _); lia. Qed.
Lemma seen_app (a b : atoms) : seen_from_right (a ++ b) <= seen_from_right a + length (marks b).
Proof.
  induction a as [|[e|m n] a IH]; cbn [app seen_from_right]; [cbn; apply seen_marks|exact IH|].
  rewrite marks_app, forallb_app. unfold level in *. destruct (forallb _ (marks a)), (forallb _ (marks b)); cbn [andb]; lia.
Qed.

Lemma path_seen (c : rcursor) : cwf c -> corder c -> r_forest c = [] -> length (l_forest c) <= seen_from_right (cobs c).
Proof.
  intros C K R. unfold CursorProofs.cobs. rewrite R. cbn [rf_obs]. rewrite app_nil_r.
  rewrite left_forest_seen; [lia|apply C|apply K|].
  pose proof (co_le _ K) as Le. pose proof (co_tree _ K) as Cv. pose proof (cwf_tree _ _ _ _ C) as Wf.
  destruct (l_forest c) as [|[d t] f]; [exact I|]. destruct (c_tree c) as [tc|]; [|constructor].
  cbn in Le, Cv, Wf. eapply below_le; [apply tree_below; assumption|exact Le].
Qed.

Definition specs_right_clear := join_clear_right_spec obs WN branchy branchy0 present raz_reb raz_weak raz_some.
Definition specs_left_clear := join_clear_left_spec obs WN branchy branchy0 present raz_reb raz_weak raz_some.
Definition specs_left_up := join_left_up_spec obs WN branchy branchy0 present raz_reb raz_weak raz_some.
Definition specs_right_up := join_right_up_spec obs WN branchy branchy0 present raz_reb raz_weak raz_some.
Definition specs_left_down := join_left_down_spec obs WN branchy present inner raz_inner.
Definition specs_right_down := join_right_down_spec obs WN branchy present inner raz_inner.

Lemma left_half lev (lc : rcursor) n1 l1 n2 l2 n3 l3 : (1 <= lev)%N -> cwf lc ->
  w_clear_right lc = Ok (n1, l1) -> w_left_up lev l1 = Ok (n2, l2) -> w_left_down lev l2 = Ok (n3, l3) ->
  exists dl, n1 + n2 + n3 + forest_len l3 = forest_len lc + 2 * dl /\ r_forest l3 = [] /\ dl <= length (l_forest l3) /\
    (corder lc -> length (l_forest l3) <= seen_from_right (cobs lc)) /\
    (r_forest lc = [] -> flat_right lev lc -> dl <= 1) /\
    (r_forest lc = [] -> hd_le lev (l_forest lc) -> lev_lt (c_tree lc) lev -> dl = 0 /\ l3 = lc).
Proof.
  intros Lv C W1 W2 W3.
  destruct (specs_right_clear lc C) as (x1 & J1 & C1 & R1 & O1 & K1).
  pose proof (forget_Ok _ _ _ W1) as X. rewrite clear_right_same, J1 in X. injection X as ->.
  destruct (specs_left_up lev l1 C1 R1) as (x2 & J2 & C2 & R2 & O2 & K2 & H2).
  pose proof (forget_Ok _ _ _ W2) as X. rewrite left_up_same, J2 in X. injection X as ->.
  destruct (specs_left_down lev l2 (raz_inner_up _ Lv) C2 R2 H2) as (x3 & J3 & C3 & R3 & O3 & K3 & H3 & T3).
  pose proof (forget_Ok _ _ _ W3) as X. rewrite left_down_same, J3 in X. injection X as ->.
  pose proof (clear_right_moves _ _ _ W1) as F1. destruct (left_up_moves _ _ _ _ R1 W2) as (F2 & D2).
  destruct (left_down_moves _ _ _ _ W3) as (F3 & _ & D3).
  exists n3. split; [unfold forest_len in *; rewrite R2, R3 in *; cbn in *; lia|]. split; [exact R3|].
  split; [lia|]. split; [|split].
  - intros K. rewrite <- O1, <- O2, <- O3. apply path_seen; auto.
  - intros R Fl. rewrite (clear_right_none _ R) in W1. injection W1 as <- <-. destruct D2 as [(_ & ->)|D2]; [auto|].
    rewrite (left_down_none _ _ D2) in W3. injection W3 as <- _. lia.
  - intros R Hl Tl. rewrite (clear_right_none _ R) in W1. injection W1 as <- <-.
    rewrite (left_up_none _ _ Hl) in W2. injection W2 as <- <-. rewrite (left_down_none _ _ Tl) in W3. injection W3 as <- <-. auto.
Qed.
Lemma right_half lev (rc : rcursor) n1 l1 n2 l2 n3 l3 : (1 <= lev)%N -> cwf rc ->
  w_clear_left rc = Ok (n1, l1) -> w_right_up lev l1 = Ok (n2, l2) -> w_right_down lev l2 = Ok (n3, l3) ->
  exists dr, n1 + n2 + n3 + forest_len l3 = forest_len rc + 2 * dr /\ l_forest l3 = [] /\ dr <= length (r_forest l3) /\
    length (r_forest l3) <= length (marks (cobs rc)) /\
    (l_forest rc = [] -> flat_left lev rc -> dr <= 1) /\
    (l_forest rc = [] -> hd_lt lev (r_forest rc) -> lev_le (c_tree rc) lev -> dr = 0 /\ l3 = rc).
Proof.
  intros Lv C W1 W2 W3.
  destruct (specs_left_clear rc C) as (x1 & J1 & C1 & R1 & O1 & K1).
  pose proof (forget_Ok _ _ _ W1) as X. rewrite clear_left_same, J1 in X. injection X as ->.
  destruct (specs_right_up lev l1 C1 R1) as (x2 & J2 & C2 & R2 & O2 & K2 & H2).
  pose proof (forget_Ok _ _ _ W2) as X. rewrite right_up_same, J2 in X. injection X as ->.
  destruct (specs_right_down lev l2 (raz_inner_up _ Lv) C2 R2 H2) as (x3 & J3 & C3 & R3 & O3 & K3 & H3 & T3).
  pose proof (forget_Ok _ _ _ W3) as X. rewrite right_down_same, J3 in X. injection X as ->.
  pose proof (clear_left_moves _ _ _ W1) as F1. destruct (right_up_moves _ _ _ _ R1 W2) as (F2 & D2).
  destruct (right_down_moves _ _ _ _ W3) as (F3 & _ & D3).
  exists n3. split; [unfold forest_len in *; rewrite R2, R3 in *; cbn in *; lia|]. split; [exact R3|].
  split; [lia|]. split; [|split].
  - rewrite <- O1, <- O2, <- O3. unfold CursorProofs.cobs. rewrite !marks_app, !app_length.
    pose proof (marks_forest_right _ (cwf_rf _ _ _ _ C3)). lia.
  - intros R Fl. rewrite (clear_left_none _ R) in W1. injection W1 as <- <-. destruct D2 as [(_ & ->)|D2]; [auto|].
    rewrite (right_down_none _ _ D2) in W3. injection W3 as <- _. lia.
  - intros R Hl Tl. rewrite (clear_left_none _ R) in W1. injection W1 as <- <-.
    rewrite (right_up_none _ _ Hl) in W2. injection W2 as <- <-. rewrite (right_down_none _ _ Tl) in W3. injection W3 as <- <-. auto.
Qed.

(** The moves of a join, with the ones going down apart. *)
Lemma join_moves (lc : rcursor) lev nm d (rc : rcursor) n c : (1 <= lev)%N -> cwf lc -> cwf rc ->
  w_join lc lev nm d rc = Ok (n, c) ->
  exists dl dr t, c_tree c = Some t /\ n + forest_len c = forest_len lc + forest_len rc + 2 * (dl + dr) /\
    ((corder lc -> dl <= seen_from_right (cobs lc)) /\
     (r_forest lc = [] -> flat_right lev lc -> dl <= 1) /\
     (r_forest lc = [] -> hd_le lev (l_forest lc) -> lev_lt (c_tree lc) lev ->
        dl = 0 /\ l_forest c = l_forest lc /\ t_left t = c_tree lc)) /\
    (dr <= length (marks (cobs rc)) /\
     (l_forest rc = [] -> flat_left lev rc -> dr <= 1) /\
     (l_forest rc = [] -> hd_lt lev (r_forest rc) -> lev_le (c_tree rc) lev ->
        dr = 0 /\ r_forest c = r_forest rc /\ t_right t = c_tree rc)).
Proof.
  intros Lv Cl Cr H. unfold w_join in H.
  wstep H. wstep H. wstep H. wstep H. wstep H. wstep H. wstep H. cbv zeta in H. wstep H. apply wret_Ok in H. destruct H as (<- & ->).
  rename a into l1, a0 into r1, a1 into l2, a2 into l3, a3 into r2, a4 into r3.
  apply free_Ok in W5, W6. destruct W5 as (W5 & ->), W6 as (W6 & ->).
  destruct (left_half lev lc _ _ _ _ _ _ Lv Cl W W1 W2) as (dl & A1 & A2 & A3 & A4 & A5 & A6).
  destruct (right_half lev rc _ _ _ _ _ _ Lv Cr W0 W3 W4) as (dr & B1 & B2 & B3 & B4 & B5 & B6).
  rewrite tree_new_eq in *. exists dl, dr. eexists. cbn [c_tree l_forest r_forest]. split; [reflexivity|].
  split; [unfold forest_len in *; cbn [l_forest r_forest]; rewrite A2, B2 in *; cbn in *; lia|]. cbn [t_left t_right]. split; [|split; [lia|]].
  - split; [intros K; specialize (A4 K); lia|]. split; [exact A5|]. intros R Hl Tl. destruct (A6 R Hl Tl) as (-> & ->). auto.
  - split; [exact B5|]. intros R Hl Tl. destruct (B6 R Hl Tl) as (-> & ->). auto.
Qed.
End Join.
