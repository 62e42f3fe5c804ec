(** * Proofs about memoised recursions that make up to two calls of themselves. *)

From Verif Require Import Base BaseFacts LevelTreeModel MemoModel MemoSpec MemoProofs MemoCost.

Section Two.
Context {K R : Type} (same : K -> K -> bool) (same_eq : forall k k', same k k' = true <-> k = k').
Context (nm : K -> option name) (first : K -> res (R + K)) (cont : K -> R -> res (R + K)).
Context (mk : K -> nat) (mr : R -> nat).
Hypothesis mk_pos : forall k, 0 < mk k.
Hypothesis first_l : forall k r, first k = Ok (inl r) -> mr r < mk k.
Hypothesis first_r : forall k k1, first k = Ok (inr k1) -> mk k1 < mk k.
Hypothesis cont_l : forall k r r', cont k r = Ok (inl r') -> mr r' <= mr r.
Hypothesis cont_r : forall k r k2, cont k r = Ok (inr k2) -> mk k2 <= mr r.

Fixpoint two (fuel : nat) (k : K) : res R :=
  match fuel with
  | O => Fuel
  | S fuel =>
      do a <- first k;
      do r <- match a with inl r => Ok r | inr k1 => two fuel k1 end;
      do b <- cont k r;
      match b with inl r => Ok r | inr k2 => two fuel k2 end
  end.
Fixpoint m_two (fuel : nat) (k : K) (tab : mtab K R) : res (R * mtab K R * list K) :=
  match fuel with
  | O => Fuel
  | S fuel =>
      do a <- first k;
      do ' (r, tab1, lg1) <-
        match a with
        | inl r => Ok (r, tab, [])
        | inr k1 => memo_opt same (nm k1) k1 (m_two fuel k1) tab
        end;
      do b <- cont k r;
      match b with
      | inl r => Ok (r, tab1, k :: lg1)
      | inr k2 =>
          do ' (r, tab2, lg2) <- memo_opt same (nm k2) k2 (m_two fuel k2) tab1;
          Ok (r, tab2, k :: lg1 ++ lg2)
      end
  end.

(** ** Enough fuel *)
Lemma two_le fuel : forall k r, two fuel k = Ok r -> mr r < mk k.
Proof using first_l first_r cont_l cont_r.
  induction fuel as [|fuel IH]; intros k r H; [discriminate|]. cbn [two] in H.
  apply bind_Ok in H. destruct H as (a & Ha & H). apply bind_Ok in H. destruct H as (r1 & H1 & H).
  assert (L1 : mr r1 < mk k).
  { destruct a as [x|k1]; [inv H1; eauto|]. apply IH in H1. apply first_r in Ha. lia. }
  apply bind_Ok in H. destruct H as (b & Hb & H). destruct b as [x|k2].
  - inv H. apply cont_l in Hb. lia.
  - apply IH in H. apply cont_r in Hb. lia.
Qed.
Lemma two_enough f : forall f' k, mk k <= f -> mk k <= f' -> two f k = two f' k.
Proof using mk_pos first_l first_r cont_l cont_r.
  induction f as [|f IH]; intros f' k L L'; [pose proof (mk_pos k); lia|].
  destruct f' as [|f']; [pose proof (mk_pos k); lia|]. cbn [two].
  destruct (first k) as [a|e|] eqn:Fi; cbn [bind]; [|reflexivity..].
  assert (X : match a with inl r => Ok r | inr k1 => two f k1 end =
              match a with inl r => Ok r | inr k1 => two f' k1 end).
  { destruct a as [r|k1]; [reflexivity|]. apply first_r in Fi. apply IH; lia. }
  rewrite X. destruct (match a with inl r => Ok r | inr k1 => two f' k1 end) as [r|e|] eqn:Sm;
    cbn [bind]; [|reflexivity..].
  assert (L1 : mr r < mk k).
  { destruct a as [x|k1]; [inv Sm; eauto|]. apply two_le in Sm. apply first_r in Fi. lia. }
  destruct (cont k r) as [[x|k2]|e|] eqn:Co; cbn [bind]; try reflexivity.
  apply cont_r in Co. apply IH; lia.
Qed.
Definition pure (k : K) : res R := two (mk k) k.
Lemma two_pure f k : mk k <= f -> two f k = pure k.
Proof using mk_pos first_l first_r cont_l cont_r. intros L. now apply two_enough. Qed.

(** ** Answers *)
Lemma m_two_sound f : forall k, mk k <= f -> sound_run pure (m_two f k) (pure k).
Proof using same_eq mk_pos first_l first_r cont_l cont_r.
  induction f as [|f IH]; intros k L; [pose proof (mk_pos k); lia|]. intros tab S.
  rewrite <- (two_pure (Datatypes.S f) k L). cbn [two m_two].
  destruct (first k) as [a|e|] eqn:Fi; cbn [bind answer]; [|split; [reflexivity|discriminate]..].
  assert (X : let run := match a with
        | inl r => Ok (r, tab, [])
        | inr k1 => memo_opt same (nm k1) k1 (m_two f k1) tab
        end in
      answer run = match a with inl r => Ok r | inr k1 => two f k1 end /\
      forall r tab' lg, run = Ok (r, tab', lg) -> sound pure tab').
  { destruct a as [r|k1]; cbn zeta.
    - split; [reflexivity|]. intros r' tab' lg H. now inv H.
    - apply first_r in Fi. rewrite (two_pure f k1) by lia.
      apply (sound_memo_opt same (fun a b => proj1 (same_eq a b)) pure); [|exact S]. apply IH. lia. }
  cbn zeta in X. destruct X as (Xa & Xs).
  destruct (match a with inl r => Ok (r, tab, []) | inr k1 => _ end) as [[[r tab1] lg1]|e|];
    cbn [answer bind] in *; rewrite <- Xa; cbn [bind answer]; [|split; [reflexivity|discriminate]..].
  specialize (Xs _ _ _ eq_refl).
  assert (L1 : mr r < mk k).
  { destruct a as [x|k1]; [inv Xa; eauto|]. symmetry in Xa. apply two_le in Xa. apply first_r in Fi. lia. }
  destruct (cont k r) as [[x|k2]|e|] eqn:Co; cbn [bind answer]; [|..|split; [reflexivity|discriminate]|split; [reflexivity|discriminate]].
  - split; [reflexivity|]. intros r' tab' lg H. now inv H.
  - apply cont_r in Co. rewrite (two_pure f k2) by lia.
    destruct (sound_memo_opt same (fun a b => proj1 (same_eq a b)) pure (nm k2) k2 (m_two f k2) (IH k2 ltac:(lia)) tab1 Xs) as (Ya & Ys).
    destruct (memo_opt same (nm k2) k2 (m_two f k2) tab1) as [[[r2 tab2] lg2]|e|]; cbn [bind answer] in *; rewrite <- Ya;
      (split; [reflexivity|]); intros r' tab' lg H; inv H. eauto.
Qed.

(** ** Calls *)
Fixpoint calls (fuel : nat) (k : K) : list K :=
  match fuel with
  | O => []
  | S fuel =>
      k :: match first k with Ok (inr k1) => calls fuel k1 | _ => [] end
        ++ match (do a <- first k; do r <- match a with inl r => Ok r | inr k1 => two fuel k1 end; cont k r) with
           | Ok (inr k2) => calls fuel k2
           | _ => []
           end
  end.
(** One call and what it leads to. *)
Lemma calls_cases f k : mk k <= S f -> forall r, pure k = Ok r ->
  exists a r1 b, first k = Ok a /\ cont k r1 = Ok b /\
    match a with inl x => x = r1 | inr k1 => mk k1 < mk k /\ mk k1 <= f /\ pure k1 = Ok r1 end /\
    mr r1 < mk k /\
    match b with inl x => x = r | inr k2 => mk k2 < mk k /\ mk k2 <= f /\ pure k2 = Ok r end /\
    calls (S f) k = k :: match a with inl _ => [] | inr k1 => calls f k1 end
                      ++ match b with inl _ => [] | inr k2 => calls f k2 end.
Proof using mk_pos first_l first_r cont_l cont_r.
  intros L r P. rewrite <- (two_pure (S f) k L) in P. cbn [two calls] in *.
  apply bind_Ok in P. destruct P as (a & Ha & P). apply bind_Ok in P. destruct P as (r1 & H1 & P).
  apply bind_Ok in P. destruct P as (b & Hb & P). exists a, r1, b.
  rewrite Ha. cbn [bind]. rewrite H1. cbn [bind]. rewrite Hb.
  assert (L1 : mr r1 < mk k).
  { destruct a as [x|k1]; [inv H1; eauto|]. apply two_le in H1. apply first_r in Ha. lia. }
  split; [reflexivity|]. split; [reflexivity|]. split; [|split; [exact L1|split; [|destruct a, b; reflexivity]]].
  - destruct a as [x|k1]; [now inv H1|]. apply first_r in Ha. split; [lia|]. split; [lia|]. rewrite <- H1. symmetry. apply two_pure. lia.
  - destruct b as [x|k2]; [now inv P|]. apply cont_r in Hb. split; [lia|]. split; [lia|]. rewrite <- P. symmetry. apply two_pure. lia.
Qed.
Lemma calls_enough f : forall f' k, mk k <= f -> mk k <= f' -> calls f k = calls f' k.
Proof using mk_pos first_l first_r cont_l cont_r.
  induction f as [|f IH]; intros f' k L L'; [pose proof (mk_pos k); lia|].
  destruct f' as [|f']; [pose proof (mk_pos k); lia|]. cbn [calls].
  destruct (first k) as [a|e|] eqn:Fi; cbn [bind]; [|reflexivity..].
  assert (X : match a with inl r => Ok r | inr k1 => two f k1 end =
              match a with inl r => Ok r | inr k1 => two f' k1 end).
  { destruct a as [r|k1]; [reflexivity|]. apply first_r in Fi. apply two_enough; lia. }
  rewrite X. f_equal. f_equal.
  - destruct a as [r|k1]; [reflexivity|]. apply first_r in Fi. apply IH; lia.
  - destruct (match a with inl r => Ok r | inr k1 => two f' k1 end) as [r|e|] eqn:Sm; cbn [bind]; [|reflexivity..].
    assert (L1 : mr r < mk k).
    { destruct a as [x|k1]; [inv Sm; eauto|]. apply two_le in Sm. apply first_r in Fi. lia. }
    destruct (cont k r) as [[x|k2]|e|] eqn:Co; try reflexivity. apply cont_r in Co. apply IH; lia.
Qed.
Definition all_calls (k : K) : list K := calls (mk k) k.
Lemma calls_all f k : mk k <= f -> calls f k = all_calls k.
Proof using mk_pos first_l first_r cont_l cont_r. intros L. now apply calls_enough. Qed.
Lemma all_calls_cases k r : pure k = Ok r ->
  exists a r1 b, first k = Ok a /\ cont k r1 = Ok b /\
    match a with inl x => x = r1 | inr k1 => mk k1 < mk k /\ pure k1 = Ok r1 end /\
    mr r1 < mk k /\
    match b with inl x => x = r | inr k2 => mk k2 < mk k /\ pure k2 = Ok r end /\
    all_calls k = k :: match a with inl _ => [] | inr k1 => all_calls k1 end
                      ++ match b with inl _ => [] | inr k2 => all_calls k2 end.
Proof using mk_pos first_l first_r cont_l cont_r.
  intros P. destruct (calls_cases (mk k) k (Nat.le_succ_diag_r _) r P) as (a & r1 & b & Ha & Hb & X & Lr & Y & C).
  exists a, r1, b. split; [exact Ha|]. split; [exact Hb|].
  rewrite (calls_all (S (mk k)) k) in C by lia. rewrite C.
  destruct a as [x|k1]; destruct b as [y|k2]; decompose [and] X; decompose [and] Y;
    (repeat split; auto); rewrite ?calls_all by lia; reflexivity.
Qed.
Lemma all_calls_closed n : forall k r, mk k <= n -> pure k = Ok r -> forall k', In k' (all_calls k) ->
  incl (all_calls k') (all_calls k) /\ exists r', pure k' = Ok r'.
Proof using mk_pos first_l first_r cont_l cont_r.
  induction n as [|n IH]; intros k r L P k' I; [pose proof (mk_pos k); lia|].
  destruct (all_calls_cases k r P) as (a & r1 & b & _ & _ & Ha & _ & Hb & C). rewrite C in *.
  destruct I as [<-|I]; [split; [rewrite C; apply incl_refl|eauto]|]. apply in_app_iff in I. destruct I as [I|I].
  - destruct a as [x|k1]; [contradiction|]. destruct Ha as (L1 & P1). destruct (IH k1 r1 ltac:(lia) P1 k' I) as (Q & Z).
    split; [|exact Z]. apply incl_tl, incl_appl, Q.
  - destruct b as [x|k2]; [contradiction|]. destruct Hb as (L2 & P2). destruct (IH k2 r ltac:(lia) P2 k' I) as (Q & Z).
    split; [|exact Z]. apply incl_tl, incl_appr, Q.
Qed.

(** Without names every call runs. *)
Lemma m_two_unnamed f : forall k r tab, mk k <= f -> pure k = Ok r -> (forall k', In k' (all_calls k) -> nm k' = None) ->
  m_two f k tab = Ok (r, tab, all_calls k).
Proof using mk_pos first_l first_r cont_l cont_r.
  induction f as [|f IH]; intros k r tab L P N; [pose proof (mk_pos k); lia|].
  destruct (all_calls_cases k r P) as (a & r1 & b & Fi & Co & Ha & Lr & Hb & C). rewrite C in N |- *. cbn [m_two].
  rewrite Fi. cbn [bind].
  assert (X : match a with
      | inl r => Ok (r, tab, [])
      | inr k1 => memo_opt same (nm k1) k1 (m_two f k1) tab
      end = Ok (r1, tab, match a with inl _ => [] | inr k1 => all_calls k1 end)).
  { destruct a as [x|k1]; [now subst x|]. destruct Ha as (L1 & P1).
    assert (Nk : nm k1 = None).
    { apply N. right. apply in_app_iff. left. destruct (all_calls_cases k1 r1 P1) as (? & ? & ? & _ & _ & _ & _ & _ & ->). now left. }
    rewrite Nk. cbn [memo_opt]. apply IH; [lia|exact P1|]. intros k' I. apply N. right. apply in_app_iff. now left. }
  rewrite X. cbn [bind]. rewrite Co. cbn [bind]. destruct b as [x|k2]; [subst x; now rewrite app_nil_r|].
  destruct Hb as (L2 & P2).
  assert (Nk : nm k2 = None).
  { apply N. right. apply in_app_iff. right. destruct (all_calls_cases k2 r P2) as (? & ? & ? & _ & _ & _ & _ & _ & ->). now left. }
  rewrite Nk. cbn [memo_opt]. rewrite (IH k2 r tab); [reflexivity|lia|exact P2|].
  intros k' I. apply N. right. apply in_app_iff. now right.
Qed.

(** ** Work *)
Section Work.
Context (P : list K).
Hypothesis P_closed : forall k, In k P -> incl (all_calls k) P.
Definition fresh (k : K) : bool := negb (existsb (same k) P).
Lemma fresh_false k : fresh k = false <-> In k P.
Proof using same_eq.
  unfold fresh. rewrite negb_false_iff, existsb_exists. split.
  - intros (x & I & S). apply same_eq in S. now subst x.
  - intros I. exists k. split; [exact I|]. now apply same_eq.
Qed.
Lemma fresh_none l : incl l P -> filter fresh l = [].
Proof using same_eq.
  induction l as [|k l IH]; intros H; [reflexivity|]. cbn [filter].
  assert (X : fresh k = false) by (apply fresh_false, H; now left). rewrite X. apply IH.
  intros x I. apply H. now right.
Qed.
(** The entries of the names in [Q] are those of [P]. *)
Definition ready (tab : mtab K R) (Q : list K) : Prop :=
  forall k n, In k Q -> nm k = Some n -> (In k P <-> exists r, tab n = Some (k, r)).
Definition filled (tab : mtab K R) (Q : list K) : Prop :=
  forall k n, In k Q -> nm k = Some n -> exists r, tab n = Some (k, r).
Definition only (tab tab' : mtab K R) (Q : list K) : Prop :=
  forall n, ~ In (Some n) (map nm Q) -> tab' n = tab n.

Lemma ready_only tab tab' Q Q' : ready tab Q' -> only tab tab' Q ->
  (forall k, In k Q' -> ~ In (nm k) (map nm Q)) -> ready tab' Q'.
Proof.
  intros H O D k n I N. rewrite (H k n I N). rewrite O; [reflexivity|]. rewrite <- N. auto.
Qed.
Lemma filled_only tab tab' Q Q' : filled tab Q' -> only tab tab' Q ->
  (forall k, In k Q' -> ~ In (nm k) (map nm Q)) -> filled tab' Q'.
Proof.
  intros H O D k n I N. destruct (H k n I N) as (r & T). exists r. rewrite O; [exact T|]. rewrite <- N. auto.
Qed.

Lemma memo_two_work f : forall k r tab, mk k <= f -> pure k = Ok r -> sound pure tab ->
  (forall k', In k' (all_calls k) -> nm k' <> None) -> NoDup (map nm (all_calls k)) -> ready tab (all_calls k) ->
  exists tab', memo_opt same (nm k) k (m_two f k) tab = Ok (r, tab', filter fresh (all_calls k)) /\
    sound pure tab' /\ filled tab' (all_calls k) /\ only tab tab' (all_calls k).
Proof using same_eq P_closed mk_pos first_l first_r cont_l cont_r.
  induction f as [|f IH]; intros k r tab L Pk S Nm Nd Rd; [pose proof (mk_pos k); lia|].
  assert (Ik : In k (all_calls k)).
  { destruct (all_calls_cases k r Pk) as (a & r1 & b & _ & _ & _ & _ & _ & C). rewrite C. now left. }
  destruct (nm k) as [n|] eqn:Nk; [|exfalso; exact (Nm k Ik Nk)]. cbn [memo_opt].
  destruct (in_dec (fun a b => match same a b as s return same a b = s -> {a = b} + {a <> b} with
      | true => fun H => left (proj1 (same_eq a b) H)
      | false => fun H => right (fun E => ltac:(apply (proj2 (same_eq a b)) in E; congruence))
      end eq_refl) k P) as [Ip|Ip].
  - (* answered from the table *)
    assert (Sub : incl (all_calls k) P) by now apply P_closed.
    destruct (proj1 (Rd k n Ik Nk) Ip) as (r' & T). exists tab. unfold memo. rewrite T, (proj2 (same_eq k k) eq_refl).
    rewrite fresh_none by exact Sub.
    assert (r' = r) by (apply S in T; congruence). subst r'. split; [reflexivity|]. split; [exact S|].
    split; [|intros m _; reflexivity]. intros k' n' I' N'. apply (Rd k' n' I' N'), Sub, I'.
  - assert (Miss : memo same n k (m_two (Datatypes.S f) k) tab =
      do ' (r, tab', lg) <- m_two (Datatypes.S f) k tab; Ok (r, memo_set tab' n k r, lg)).
    { unfold memo. destruct (tab n) as [[k' r']|] eqn:T; [|reflexivity]. destruct (same k k') eqn:Sm; [|reflexivity].
      apply same_eq in Sm. subst k'. exfalso. apply Ip, (Rd k n Ik Nk). eauto. }
    rewrite Miss. clear Miss. cbn [m_two].
    destruct (all_calls_cases k r Pk) as (a & r1 & b & Fi & Co & Ha & Lr & Hb & C).
    rewrite Fi. cbn [bind].
    set (Q1 := match a with inl _ => [] | inr k1 => all_calls k1 end) in *.
    set (Q2 := match b with inl _ => [] | inr k2 => all_calls k2 end) in *.
    rewrite C in Nm, Nd, Rd |- *. cbn [map] in Nd. rewrite map_app in Nd.
    inversion Nd as [|? ? Nd0 Nd']; subst. clear Nd. rewrite in_app_iff in Nd0.
    destruct (NoDup_app_inv _ _ Nd') as (ND1 & ND2 & Dis).
    assert (Fr : fresh k = true). { apply not_false_iff_true. rewrite fresh_false. exact Ip. }
    cbn [filter]. rewrite Fr, filter_app.
    assert (X1 : exists tab1, match a with
        | inl r => Ok (r, tab, [])
        | inr k1 => memo_opt same (nm k1) k1 (m_two f k1) tab
        end = Ok (r1, tab1, filter fresh Q1) /\ sound pure tab1 /\ filled tab1 Q1 /\ only tab tab1 Q1).
    { destruct a as [x|k1]; subst Q1.
      - subst x. exists tab. split; [reflexivity|]. split; [exact S|]. split; [intros ? ? []|intros ? _; reflexivity].
      - destruct Ha as (L1 & P1). apply IH; auto; [lia| |].
        + intros k' I'. apply Nm. right. apply in_app_iff. now left.
        + intros k' n' I' N'. apply Rd; [|exact N']. right. apply in_app_iff. now left. }
    destruct X1 as (tab1 & -> & S1 & F1 & O1). cbn [bind]. rewrite Co. cbn [bind].
    assert (X2 : exists tab2,
        match b with
        | inl r => Ok (r, tab1, k :: filter fresh Q1)
        | inr k2 =>
            do ' (r, tab2, lg2) <- memo_opt same (nm k2) k2 (m_two f k2) tab1;
            Ok (r, tab2, k :: filter fresh Q1 ++ lg2)
        end = Ok (r, tab2, k :: filter fresh Q1 ++ filter fresh Q2) /\
        sound pure tab2 /\ filled tab2 Q2 /\ only tab1 tab2 Q2).
    { destruct b as [x|k2]; subst Q2.
      - subst x. exists tab1. split; [cbn [filter]; now rewrite app_nil_r|]. split; [exact S1|].
        split; [intros ? ? []|intros ? _; reflexivity].
      - destruct Hb as (L2 & P2).
        destruct (IH k2 r tab1) as (tab2 & T2 & R2); auto; [lia| | |].
        + intros k' I'. apply Nm. right. apply in_app_iff. now right.
        + apply (ready_only tab tab1 Q1); auto.
          * intros k' n' I' N'. apply Rd; [|exact N']. right. apply in_app_iff. now right.
          * intros k' I' J. apply (Dis _ J), in_map, I'.
        + rewrite T2. exists tab2. cbn [bind]. auto. }
    destruct X2 as (tab2 & -> & S2 & F2 & O2). cbn [bind].
    exists (memo_set tab2 n k r). split; [reflexivity|]. split; [now apply sound_set|].
    assert (F1' : filled tab2 Q1).
    { apply (filled_only tab1 tab2 Q2); auto. intros k' I' J. exact (Dis _ (in_map nm _ _ I') J). }
    split.
    + intros k' n' [<-|I'] N'; unfold memo_set.
      * assert (n' = n) by congruence. subst n'. exists r. now destruct (name_eq_dec n n).
      * destruct (name_eq_dec n' n) as [->|Ne].
        { exfalso. apply Nd0. rewrite Nk, <- N', <- in_app_iff, <- map_app. now apply in_map. }
        apply in_app_iff in I'. destruct I' as [I'|I']; eauto.
    + intros m Hm. cbn [map] in Hm. rewrite map_app in Hm. unfold memo_set.
      destruct (name_eq_dec m n) as [->|Ne]; [exfalso; apply Hm; left; congruence|].
      rewrite O2, O1; [reflexivity| |]; intros J; apply Hm; right; apply in_app_iff; auto.
Qed.
End Work.
End Two.
