(** * Raz proofs, part 7: everything reachable is well formed. *)

From Verif Require Import Base BaseFacts Spec SpecRaz StackModel AStackModel StackScripts StackProofs
  LevelTreeModel TreeCursorModel RazMetaModel RazModel TreeSpec TreeProofs CursorProofs RazView
  RazProofs RazUnfocus RazFocus RazIndex RazOps RazFrom RazScripts.

Lemma loop_inv {S R} (Inv : S -> Prop) (Q : R -> Prop) (step : S -> res (S + R)) :
  (forall s x, Inv s -> step s = Ok x -> match x with inl s' => Inv s' | inr r => Q r end) ->
  forall n s r, Inv s -> loop n step s = Ok r -> Q r.
Proof.
  intros H n. induction n as [|n IH]; intros s r I L; simpl in L; [discriminate|].
  destruct (step s) as [x|m|] eqn:St; try discriminate.
  specialize (H _ _ I St). destruct x as [s'|r']; [eauto|]. injection L as ->. exact H.
Qed.

(** ** Stacks *)
Section Stacks.
Context {E : Type}.
Notation atoms := (list (atom E level)).

Lemma marks_suffix_drop P (l : atoms) : levels_in P l -> levels_in P (drop_marks l).
Proof.
  unfold levels_in. induction l as [|[e|m n] l IH]; simpl; auto. intros H. inv H. auto.
Qed.
Lemma marks_suffix_after P (l : atoms) : levels_in P l -> levels_in P (after_run l).
Proof. unfold levels_in. induction l as [|[e|m n] l IH]; simpl; auto. Qed.

Lemma sp_step_levels P (l : atoms) o : levels_in P l ->
  match o with OpArchive _ m => P m | _ => True end -> levels_in P (snd (sp_step l o)).
Proof.
  intros H Ho. destruct o as [e|v| | | |nm m| | | | |]; simpl; auto.
  - unfold levels_in in *. rewrite marks_app. apply Forall_app. split; auto.
    rewrite marks_rev, marks_map_Elt. constructor.
  - unfold sp_pop. pose proof (marks_suffix_drop P l H) as D.
    destruct (drop_marks l) as [|[e|m n] r]; simpl; try constructor. exact D.
  - unfold sp_pop_meta. destruct l as [|[e|m n] [|[e'|m' n'] r]]; simpl; auto; try constructor.
    unfold levels_in in *. simpl in *. now inv H.
  - unfold sp_archive. destruct l as [|[e|m' n'] r]; simpl; auto. unfold levels_in. simpl. constructor; auto.
  - unfold sp_next_archive. pose proof (marks_suffix_after P l H) as D.
    destruct l as [|a l]; simpl; auto. simpl in D.
    destruct (match a with Elt _ => after_run l | Mark _ _ => a :: l end) as [|[e|m n] r]; simpl; try constructor.
    unfold levels_in in *. simpl in *. now inv D.
Qed.

Lemma sp_run_levels P ops : forall l : atoms, levels_in P l ->
  Forall (fun o => match o with OpArchive _ m => P m | _ => True end) ops ->
  levels_in P (snd (sp_run l ops)).
Proof.
  induction ops as [|o ops IH]; intros l H F; simpl; auto. inversion F as [|? ? F1 F2]; subst.
  pose proof (sp_step_levels P l o H F1) as S. destruct (sp_step l o) as [x l1]. simpl in S.
  specialize (IH l1 S F2). now destruct (sp_run l1 ops).
Qed.

Lemma stack_for_abs lo hi ops (s : astack E level) : stack_for lo hi ops s ->
  as_inv s /\ as_abs s = snd (sp_run [] ops) /\ levels_in (fun l => lo <= l < hi)%N (as_abs s) /\
  (current s <> [] \/ as_abs s = []).
Proof.
  intros ((obs & R) & F & A). destruct (as_run_spec ops as_new as_new_inv) as (s' & R' & Ab & I).
  rewrite R in R'. injection R' as -> <-. split; [exact I|]. split; [exact Ab|]. split.
  - rewrite Ab. apply sp_run_levels; [constructor|exact F].
  - rewrite as_is_empty_abs in A. destruct (as_abs s); [auto|]. left. intros C. apply A; [reflexivity|].
    unfold as_active_len. now rewrite C.
Qed.
End Stacks.

Section Reach.
Context {E M : Type} {RM : RazMeta E M}.
Notation obs := (@item_atoms E M).

(** ** focus, for any kind of index *)
Theorem focus_some (t : raz_tree E M) i z : lawful RM -> good t -> rt_focus t i = Ok (Some z) ->
  exists p q, p ++ q = contents t /\ sim z (sz_at p q) /\ (canonical t -> ordered z).
Proof.
  intros [Sp LE] [G _] F. unfold rt_focus, contents in *. destruct (rt_tree t) as [tr|] eqn:T.
  2:{ injection F as <-. exists [], []. destruct (@sim_new E M RM). auto. }
  simpl in G. apply bind_Ok in F. destruct F as (r & L & F).
  assert (Q : match r with
    | None => True
    | Some (c, i') => exists v, at_node c (leaf_of v) /\
        lf_obs obs (l_forest c) ++ map Elt v ++ rf_obs obs (r_forest c) = tree_atoms (Some tr) /\
        (conventional tr -> corder c)
    end).
  { refine (loop_inv (fun '(c, _) => exists t', at_node c t' /\
       lf_obs obs (l_forest c) ++ tree_atoms (Some t') ++ rf_obs obs (r_forest c) = tree_atoms (Some tr) /\
       (conventional tr -> corder c))
       (fun r => match r with
    | None => True
    | Some (c, i') => exists v, at_node c (leaf_of v) /\
        lf_obs obs (l_forest c) ++ map Elt v ++ rf_obs obs (r_forest c) = tree_atoms (Some tr) /\
        (conventional tr -> corder c)
    end) focus_step _ _ _ _ _ L).
    - intros [c i'] x (t' & A & Ob & K) St. unfold focus_step, c_peek in St. rewrite (an_tree _ _ A) in St.
      destruct (tree_ok_case _ (an_ok _ _ A)) as [(v & -> & Hv)|(lv & nm & ml & mr & tl & tr' & -> & _)].
      + simpl in St. injection St as <-. exists v. rewrite tree_atoms_leaf in Ob. auto.
      + rewrite tree_atoms_branch in Ob.
        apply bind_Ok in St. destruct St as (d & Hd & St). simpl in Hd. injection Hd as <-.
        apply bind_Ok in St. destruct St as (nav & Hn & St).
        destruct (at_down_left _ _ _ _ _ _ _ A) as (cl & Dl & Al & Ll & Rl & Kl).
        destruct (at_down_right _ _ _ _ _ _ _ A) as (cr & Dr & Ar & Lr & Rr & Kr).
        destruct nav as [i1|i1| |].
        * rewrite Dl in St. simpl in St. injection St as <-. exists tl. split; [exact Al|]. split; [|auto].
          rewrite Ll, Rl, <- Ob, <- !app_assoc. reflexivity.
        * rewrite Dr in St. simpl in St. injection St as <-. exists tr'. split; [exact Ar|]. split; [|auto].
          rewrite Lr, Rr, <- Ob, <- !app_assoc. reflexivity.
        * rewrite Dl in St. cbn [assert bind] in St.
          destruct (at_down_right_all _ _ Al) as (c2 & v & D2 & A2 & R2 & L2 & K2). rewrite D2 in St.
          simpl in St. injection St as <-. exists (leaf_of v). split; [exact A2|]. split; [|auto].
          rewrite tree_atoms_leaf, app_assoc, L2, R2, Ll, Rl, <- Ob, <- !app_assoc. reflexivity.
        * injection St as <-. exact I.
    - exists tr. split; [constructor; simpl; auto|]. split; [simpl; apply app_nil_r|]. apply corder_from. }
  destruct r as [[c i']|]; [|discriminate]. destruct Q as (v & A & Ob & K).
  unfold c_split in F. rewrite (an_tree _ _ A) in F. cbn [t_peek RazProofs.leaf_of] in F.
  apply bind_Ok in F. destruct F as ([a b] & Hs & F). injection F as <-.
  destruct (leaf_raz_sim c v a b A (Sp _ _ _ _ Hs) _ _ eq_refl eq_refl) as (S1 & S2). cbv zeta in S1, S2.
  do 2 eexists. split; [|split; [exact S1|]].
  - rewrite <- app_assoc, (app_assoc (map Elt a)), <- map_app, (Sp _ _ _ _ Hs). exact Ob.
  - intros [_ C]. rewrite T in C. auto.
Qed.

(** ** Scripts *)
Lemma zstep_sim (z : raz E M) (s : sraz E) o : zop_ok o -> sim z s ->
  exists z', zstep z o = Ok (fst (sz_step s o), z') /\ sim z' (snd (sz_step s o)) /\ (ordered z -> ordered z').
Proof.
  intros Ho H. destruct o as [e|e| | | | |lev nm|lev nm]; simpl in Ho; cbn [zstep sz_step].
  - destruct (push_left_sim z s e H) as (A & B & C). destruct (push_left z e), (sz_push_left s e).
    simpl in *. subst. eauto.
  - destruct (push_right_sim z s e H) as (A & B & C). destruct (push_right z e), (sz_push_right s e).
    simpl in *. subst. eauto.
  - destruct (pop_left_sim z s H) as (z' & -> & B & C). destruct (sz_pop_left s). simpl in *. eauto.
  - destruct (pop_right_sim z s H) as (z' & -> & B & C). destruct (sz_pop_right s). simpl in *. eauto.
  - rewrite (peek_left_sim z s H). simpl. eauto.
  - rewrite (peek_right_sim z s H). simpl. eauto.
  - destruct (archive_left_sim z s lev nm Ho H) as (A & B). simpl. eauto.
  - destruct (archive_right_sim z s lev nm Ho H) as (A & B). simpl. eauto.
Qed.

Lemma zrun_sim ops : forall (z : raz E M) (s : sraz E), Forall zop_ok ops -> sim z s ->
  exists z', zrun z ops = Ok (fst (sz_run s ops), z') /\ sim z' (snd (sz_run s ops)) /\ (ordered z -> ordered z').
Proof.
  induction ops as [|o ops IH]; intros z s F H; cbn [zrun sz_run].
  - simpl. eauto.
  - inversion F as [|? ? F1 F2]; subst. destruct (zstep_sim z s o F1 H) as (z1 & -> & S1 & O1). cbn [bind].
    destruct (sz_step s o) as [x s1]. simpl in S1. destruct (IH z1 s1 F2 S1) as (z2 & -> & S2 & O2).
    destruct (sz_run s1 ops). simpl in *. eauto 6.
Qed.

(** The element-only view. *)
Definition zip_of (s : sraz E) : list E * list E := (elts (s_left s), elts (s_right s)).

Lemma sz_step_zip (s : sraz E) o :
  zanswer (fst (sz_step s o)) = fst (zip_step (zip_of s) o) /\
  zip_of (snd (sz_step s o)) = snd (zip_step (zip_of s) o).
Proof.
  destruct o as [e|e| | | | |lev nm|lev nm]; simpl; auto.
  - unfold sz_pop_left. destruct (sp_pop_elts (s_left s)) as [X Y]. destruct (sp_pop (s_left s)) as [x l].
    simpl in *. injection X as ->. unfold zip_of. simpl. now rewrite Y.
  - unfold sz_pop_right. destruct (sp_pop_elts (s_right s)) as [X Y]. destruct (sp_pop (s_right s)) as [x l].
    simpl in *. injection X as ->. unfold zip_of. simpl. now rewrite Y.
  - unfold sz_peek_left, sp_peek. destruct (sp_pop_elts (s_left s)) as [X _]. rewrite X. auto.
  - unfold sz_peek_right, sp_peek. destruct (sp_pop_elts (s_right s)) as [X _]. rewrite X. auto.
  - unfold sz_archive_left, sp_archive, zip_of. destruct (s_left s) as [|[e|m n] l] eqn:Q; simpl; rewrite ?Q; auto.
  - unfold sz_archive_right, sp_archive, zip_of. destruct (s_right s) as [|[e|m n] l] eqn:Q; simpl; rewrite ?Q; auto.
Qed.

Lemma sz_run_zip ops : forall s : sraz E,
  map zanswer (fst (sz_run s ops)) = fst (zip_run (zip_of s) ops) /\
  zip_of (snd (sz_run s ops)) = snd (zip_run (zip_of s) ops).
Proof.
  induction ops as [|o ops IH]; intros s; cbn [sz_run zip_run]; auto.
  destruct (sz_step_zip s o) as [A B]. destruct (sz_step s o) as [x s1]. cbn [fst snd] in A, B.
  destruct (zip_step (zip_of s) o) as [y l1]. cbn [fst snd] in A, B. subst.
  destruct (IH s1) as [C D]. destruct (sz_run s1 ops). destruct (zip_run (zip_of s1) ops). simpl in *.
  subst. split; congruence.
Qed.

Lemma sz_unfocus_elts (s : sraz E) : elts (sz_unfocus s) = rev (elts (s_left s)) ++ elts (s_right s).
Proof.
  unfold sz_unfocus. destruct (s_left s) as [|[e|m n] l] eqn:L, (s_right s) as [|[e'|m' n'] r] eqn:R; simpl;
    rewrite ?elts_app, ?elts_rev; simpl; rewrite ?app_nil_r; auto.
  destruct ((s_lnew s =? 0) && (0 <? s_rnew s)); rewrite ?elts_app, ?elts_rev; simpl;
    rewrite ?elts_app, ?elts_rev; simpl; rewrite ?app_nil_r; auto.
Qed.

End Reach.

(** ** Everything reachable *)
Scheme tree_reached_min := Minimality for tree_reached Sort Prop
  with raz_reached_min := Minimality for raz_reached Sort Prop.
Combined Scheme reached_ind from tree_reached_min, raz_reached_min.

Theorem reached_ok free :
  (forall E M (RM : RazMeta E M) (t : raz_tree E M), tree_reached free t ->
     good t /\ (free = false -> canonical t)) /\
  (forall E M (RM : RazMeta E M) (z : raz E M), raz_reached free z ->
     exists s, sim z s /\ (free = false -> ordered z)).
Proof.
  apply reached_ind.
  - intros E M RM t H. destruct (@empty_ok E M RM) as (t' & E' & C & _). rewrite H in E'. injection E' as <-.
    split; [apply C|auto].
  - intros E M RM v t H. pose proof (@from_vec_ok E M RM v) as F. destruct v as [|e v]; [discriminate|].
    destruct F as (t' & E' & C & _). rewrite H in E'. injection E' as <-. split; [apply C|auto].
  - intros E M RM z t _ (s & S & O) U. destruct (unfocus_sim z s S) as (t' & U' & G & _ & C).
    rewrite U in U'. injection U' as <-. auto.
  - intros E M RM a lev nm b t _ [Ga Ca] _ [Gb Cb] Lv Fit J.
    assert (Ne : contents a <> [] /\ contents b <> []).
    { split; intros X; rewrite (join_none a b lev nm) in J; auto; discriminate. }
    destruct Ne as [Na Nb]. destruct (join_ok a b lev nm Ga Gb Lv Na Nb) as (t' & J' & G & _ & C).
    rewrite J in J'. injection J' as <-. split; [exact G|]. intros Fr. apply C. destruct (Fit Fr). auto.
  - intros E M RM R N RN f a t _ [Ga Ca] Mp. destruct (map_ok (N := N) f a Ga) as (t' & Mp' & G & C & _).
    rewrite Mp in Mp'. injection Mp' as <-. auto.
  - intros E M RM ops s t Sf F. destruct (stack_for_abs _ _ _ _ Sf) as (I & _ & Lv & Cs).
    destruct (@from_at_tail_ok E M RM s I) as (t' & F' & _ & C & _).
    { eapply Forall_impl; [|exact Lv]. cbv beta. intros ? ?. lia. }
    rewrite F in F'. injection F' as <-.
    assert (Cn : canonical t). { apply C; auto. eapply Forall_impl; [|exact Lv]. cbv beta. intros ? ?. lia. }
    split; [apply Cn|auto].
  - intros E M RM ops s t Sf F. destruct (stack_for_abs _ _ _ _ Sf) as (I & _ & Lv & Cs).
    destruct (@from_at_head_ok E M RM s I) as (t' & F' & _ & C & _).
    { eapply Forall_impl; [|exact Lv]. cbv beta. intros ? ?. lia. }
    rewrite F in F'. injection F' as <-. split; [apply C|]; auto.
  - intros E M RM. exists sz_new. destruct (@sim_new E M RM). auto.
  - intros E M RM t i z _ [G C] Lw F. destruct (focus_some t i z Lw G F) as (p & q & _ & S & O). eauto.
  - intros E M RM t z _ [G C] F. destruct (focus_left_sim t G) as (z' & F' & S & O).
    rewrite F in F'. injection F' as <-. eauto.
  - intros E M RM z o x z' _ (s & S & O) Ho St. destruct (zstep_sim z s o Ho S) as (z2 & St' & S' & O').
    rewrite St in St'. injection St' as _ <-. eauto.
Qed.

Lemma tree_reached_good {free E M} {RM : RazMeta E M} (t : raz_tree E M) : tree_reached free t -> good t.
Proof. intros H. exact (proj1 (proj1 (reached_ok free) _ _ _ _ H)). Qed.
Lemma tree_reached_canonical {E M} {RM : RazMeta E M} (t : raz_tree E M) : tree_reached false t -> canonical t.
Proof. intros H. exact (proj2 (proj1 (reached_ok false) _ _ _ _ H) eq_refl). Qed.

Lemma zrun_reached {free E M} {RM : RazMeta E M} ops : forall (z : raz E M) xs z', Forall zop_ok ops ->
  raz_reached free z -> zrun z ops = Ok (xs, z') -> raz_reached free z'.
Proof.
  induction ops as [|o ops IH]; intros z xs z' F R H; cbn [zrun] in H.
  - injection H as _ <-. exact R.
  - inversion F as [|? ? F1 F2]; subst. apply bind_Ok in H. destruct H as ([x z1] & H1 & H).
    apply bind_Ok in H. destruct H as ([xs2 z2] & H2 & H). injection H as _ <-.
    eapply IH; [exact F2| |exact H2]. eapply RR_step; eauto.
Qed.

Lemma lawful_unit E : lawful (unit_meta E).
Proof.
  split; [|apply unit_last_end]. intros v [| |u] a b; simpl; try discriminate.
  - rewrite split_at_none. intros H. now injection H as <- <-.
  - rewrite split_at_all. intros H. injection H as <- <-. apply app_nil_r.
Qed.
Lemma split_at_app {E} (v : list E) n a b : split_at v n = Ok (a, b) -> a ++ b = v.
Proof.
  unfold split_at. destruct (_ <? _)%N; [discriminate|]. intros H. injection H as <- <-. apply firstn_skipn.
Qed.
Lemma lawful_count E : lawful (count_meta E).
Proof.
  split; [|apply count_last_end]. intros v i a b. simpl.
  destruct (i =? usize_max)%N; apply split_at_app.
Qed.
Lemma lawful_names E : lawful (names_meta E).
Proof.
  split; [|apply names_last_end]. intros v [| |u] a b; simpl; try discriminate; apply split_at_app.
Qed.
