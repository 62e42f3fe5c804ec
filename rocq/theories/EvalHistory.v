(** * Histories of the harnesses. *)

From Coq Require Import Permutation.
From Verif Require Import Base BaseFacts Spec SpecRaz StackModel AStackModel StackScripts StackProofs
  LevelTreeModel TreeCursorModel RazMetaModel RazModel TreeSpec TreeProofs CursorProofs RazView
  RazProofs RazUnfocus RazFocus RazIndex RazOps RazFrom RazScripts RazSession RazReach RazFacts RazMetaFacts
  LevelGenModel LevelGenProofs ExampleModel ExampleSpec ExampleProofs EvalModel EvalSpec EvalProofs EvalScripts.

Section Atoms.
Context {E : Type}.
Notation atoms := (list (atom E level)).

Lemma marked_elts us ns lev nm xs : forall k, elts (@marked E us ns lev nm k xs) = xs.
Proof.
  induction xs as [|x xs IH]; intros k; [reflexivity|]. rewrite marked_cons. cbn [elts].
  rewrite elts_app, IH. now destruct ((k + 1) mod us =? 0)%N.
Qed.
Lemma strip_cases (l : atoms) : strip l = l \/ exists m n, l = strip l ++ [Mark m n].
Proof.
  unfold strip. destruct (rev l) as [|[e|m n] r] eqn:R; auto. right. exists m, n.
  rewrite <- (rev_involutive l), R. reflexivity.
Qed.
Lemma strip_elts (l : atoms) : elts (strip l) = elts l.
Proof.
  destruct (strip_cases l) as [->|(m & n & X)]; [reflexivity|].
  transitivity (elts (strip l ++ [Mark m n])); [rewrite elts_app; simpl; now rewrite app_nil_r|now rewrite <- X].
Qed.
Lemma seam_elts (l q : atoms) : elts (seam l q) = elts l.
Proof. unfold seam. destruct (is_elt q); [reflexivity|apply strip_elts]. Qed.
Lemma seam_names (l q : atoms) : exists r, point_names l = point_names (seam l q) ++ r.
Proof.
  unfold seam. destruct (is_elt q); [exists []; now rewrite app_nil_r|].
  destruct (strip_cases l) as [->|(m & n & X)]; [exists []; now rewrite app_nil_r|].
  exists (point_names [Mark m n : atom E level]). rewrite <- point_names_app. now rewrite <- X.
Qed.

Lemma marked_names us ns lev nm xs : (1 <= us)%N -> (1 <= ns)%N -> forall k,
  point_names (@marked E us ns lev nm k xs) =
  map (fun i => NPair (NNum (nm (k / (ns * us) + 1 + N.of_nat i)%N)) (NStr "tree"))
    (seq 0 (N.to_nat ((k + N.of_nat (length xs)) / (ns * us) - k / (ns * us)))).
Proof.
  intros U Ns. induction xs as [|x xs IH]; intros k.
  - simpl length. rewrite N.add_0_r, N.sub_diag. reflexivity.
  - rewrite marked_cons.
    assert (X : point_names (Elt x :: (if ((k + 1) mod us =? 0)%N
       then [Mark (lev ((k + 1) / us))%N
               (if ((k + 1) mod (ns * us) =? 0)%N then point_name (Some (NNum (nm ((k + 1) / (ns * us))%N))) else None)]
       else []) ++ marked us ns lev nm (k + 1) xs) =
       (if ((k + 1) mod (ns * us) =? 0)%N then [NPair (NNum (nm ((k + 1) / (ns * us))%N)) (NStr "tree")] else []) ++
       point_names (marked us ns lev nm (k + 1) xs)).
    { change (point_names (Elt x :: ?r)) with (point_names r). rewrite point_names_app. f_equal.
      destruct (N.eqb_spec ((k + 1) mod (ns * us)) 0) as [Z|Z].
      - rewrite (mod_mul_zero (k + 1) ns us Ns U Z). reflexivity.
      - now destruct ((k + 1) mod us =? 0)%N. }
    rewrite X, IH. clear X.
    pose proof (div_succ k (ns * us) ltac:(nia)) as D.
    replace (k + N.of_nat (length (x :: xs)))%N with (k + 1 + N.of_nat (length xs))%N by (simpl length; lia).
    pose proof (N.div_le_mono (k + 1) (k + 1 + N.of_nat (length xs)) (ns * us) ltac:(nia) ltac:(lia)) as Mono.
    destruct (N.eqb_spec ((k + 1) mod (ns * us)) 0) as [Z|Z].
    + set (q := ((k + 1 + N.of_nat (length xs)) / (ns * us))%N) in *.
      replace (N.to_nat (q - k / (ns * us))) with (Datatypes.S (N.to_nat (q - (k + 1) / (ns * us)))) by lia.
      cbn [seq map app]. f_equal.
      * do 3 f_equal. lia.
      * rewrite <- seq_shift, map_map. apply map_ext. intros i. do 3 f_equal. lia.
    + rewrite D, N.add_0_r. reflexivity.
Qed.
End Atoms.

Lemma NoDup_insert {A} (p x q : list A) : NoDup (p ++ q) -> NoDup x -> (forall a, In a x -> ~ In a (p ++ q)) ->
  NoDup (p ++ x ++ q).
Proof.
  intros H X D. apply (Permutation_NoDup (l := x ++ p ++ q)).
  - rewrite !app_assoc. apply Permutation_app_tail, Permutation_app_comm.
  - clear - H X D. induction x as [|a x IH]; [exact H|]. inversion X; subst. constructor.
    + rewrite in_app_iff. intros [I|I]; [auto|]. exact (D a (or_introl eq_refl) I).
    + apply IH; auto. intros b Hb. apply D. now right.
Qed.
Lemma NoDup_app_l {A} (a b : list A) : NoDup (a ++ b) -> NoDup a.
Proof.
  induction a as [|x a IH]; intros H; [constructor|]. inversion H; subst. constructor; [|auto].
  intros I. apply H2. apply in_or_app. now left.
Qed.

Section Edits.
Context {E M G S : Type} {RM : RazMeta E M} {CG : Coord E G} {WS : WordRng S}.
Notation eval := (eval_raz E M G).

(** One edit at any place keeps the harness in order. *)
Lemma edit_harness free (ev : eval) t z p q g dg ng batch (rng : S) :
  ev_tree ev = Some t -> tree_reached free t -> p ++ q = contents t -> at_work free z (sz_at p q) ->
  harness free ev (elts (contents t)) g dg ng ->
  (1 <= dg)%N -> (1 <= ng)%N -> (ng * dg < usize_mod)%N -> (ev_counter ev + batch < usize_max)%N ->
  (ev_names ev + batch / (ng * dg) + 1 < usize_mod)%N -> forall g',
  exists t' ev', ev_edit (ev_set_coord ev g') z batch rng = Ok (ev', state_after next_word (N.to_nat (batch / dg + 1)) rng) /\
    ev' = EvalRaz (Some t') (ev_names ev + batch / (ng * dg) + 1)%N (state_after gen_elt (N.to_nat batch) g')
        (ev_counter ev + batch)%N dg ng /\
    tree_reached free t' /\
    contents t' = p ++ seam (batch_atoms dg ng (nth_level rng) (ev_names ev) (ev_counter ev)
                              (drawn gen_elt (N.to_nat batch) g')) q ++ q /\
    harness free ev' (elts p ++ drawn gen_elt (N.to_nat batch) g' ++ elts q)
      (state_after gen_elt (N.to_nat batch) g') dg ng.
Proof.
  intros T R PQ W H D Ng Ov Hc Hn g'. destruct H as (t0 & T0 & _ & _ & Hg & Hd & Hng & ND & FA).
  rewrite T in T0. injection T0 as <-.
  destruct (good_ends t (tree_reached_good _ R)) as [Sp En]. rewrite <- PQ in Sp, En.
  destruct (ev_edit_spec free (ev_set_coord ev g') z p q batch rng W Sp En) as (t' & Ed & R' & C');
    cbn [ev_set_coord ev_datagauge ev_namegauge ev_counter ev_names ev_coord] in *; rewrite ?Hd, ?Hng in *; auto.
  eexists t', _. split; [exact Ed|]. split; [reflexivity|]. split; [exact R'|]. split; [exact C'|].
  exists t'. cbn [ev_set_coord ev_tree ev_datagauge ev_namegauge ev_counter ev_names ev_coord].
  set (new := batch_atoms _ _ _ _ _ _) in C'.
  assert (Nm : point_names new = map (fun i => NPair (NNum (ev_names ev + N.of_nat i)) (NStr "tree"))
    (seq 0 (N.to_nat ((ev_counter ev + batch) / (ng * dg) - ev_counter ev / (ng * dg))))).
  { unfold new, batch_atoms. rewrite marked_names by assumption. rewrite drawn_length, N2Nat.id.
    apply map_ext. intros i. do 2 f_equal. lia. }
  destruct (seam_names new q) as (rest & Sn). rewrite Nm in Sn.
  assert (In1 : forall a, In a (point_names (seam new q)) -> exists i, a = NPair (NNum (ev_names ev + N.of_nat i)) (NStr "tree") /\
    (N.of_nat i < batch / (ng * dg) + 1)%N).
  { intros a Ha. assert (Ha' : In a (map (fun i => NPair (NNum (ev_names ev + N.of_nat i)) (NStr "tree"))
      (seq 0 (N.to_nat ((ev_counter ev + batch) / (ng * dg) - ev_counter ev / (ng * dg)))))).
    { rewrite Sn. apply in_or_app. now left. }
    apply in_map_iff in Ha'. destruct Ha' as (i & <- & Hi). apply in_seq in Hi. exists i. split; [reflexivity|].
    pose proof (div_batch (ev_counter ev) batch (ng * dg) ltac:(nia)). lia. }
  rewrite <- PQ, point_names_app in ND, FA.
  split; [reflexivity|]. split; [exact R'|]. split; [|split; [reflexivity|split; [reflexivity|split; [reflexivity|split]]]].
  - rewrite C', !elts_app, seam_elts. unfold new, batch_atoms. rewrite marked_elts. reflexivity.
  - rewrite C', !point_names_app. apply NoDup_insert; [exact ND| |].
    + apply (NoDup_app_l _ rest). rewrite <- Sn. apply FinFun.Injective_map_NoDup; [|apply seq_NoDup].
      intros i j X. injection X. lia.
    + intros a Ha. destruct (In1 a Ha) as (i & -> & _). intros I.
      rewrite Forall_forall in FA. destruct (FA _ I) as (j & X & Hj). injection X. lia.
  - rewrite C', !point_names_app. rewrite !Forall_app in *. destruct FA as [F1 F2]. split; [|split].
    + eapply Forall_impl; [|exact F1]. simpl. intros a (i & -> & Hi). exists i. split; [reflexivity|].
      eapply N.lt_le_trans; [exact Hi|]. rewrite <- N.add_assoc. apply N.le_add_r.
    + apply Forall_forall. intros a Ha. destruct (In1 a Ha) as (i & -> & Hi). eexists. split; [reflexivity|].
      rewrite <- N.add_assoc. now apply N.add_lt_mono_l.
    + eapply Forall_impl; [|exact F2]. simpl. intros a (i & -> & Hi). exists i. split; [reflexivity|].
      eapply N.lt_le_trans; [exact Hi|]. rewrite <- N.add_assoc. apply N.le_add_r.
Qed.

(** Fresh from [inc_init]. *)
Lemma init_harness free (size dg ng : N) (coord : G) (rng : S) :
  (1 <= dg)%N -> (1 <= ng)%N -> (ng * dg < usize_mod)%N -> (size < usize_mod)%N ->
  exists (ev : eval) rng', ev_inc_init size dg ng coord rng = Ok (ev, rng') /\
    ev_counter ev = 0%N /\ ev_names ev = (size / (ng * dg))%N /\
    harness free ev (drawn gen_elt (N.to_nat size) coord) (state_after gen_elt (N.to_nat size) coord) dg ng.
Proof.
  intros D Ng Ov Hs. destruct (inc_init_spec free size dg ng coord rng D Ng Ov Hs) as (t & I & R & C).
  do 2 eexists. split; [exact I|]. split; [reflexivity|]. split; [reflexivity|].
  exists t. cbn [ev_tree ev_datagauge ev_namegauge ev_counter ev_names ev_coord].
  set (new := batch_atoms _ _ _ _ _ _) in C.
  assert (Nm : point_names new = map (fun i => NPair (NNum (N.of_nat i)) (NStr "tree")) (seq 0 (N.to_nat (size / (ng * dg))))).
  { unfold new, batch_atoms. rewrite marked_names by assumption. rewrite drawn_length, N2Nat.id, N.add_0_l.
    rewrite (N.div_small 0) by nia. rewrite N.sub_0_r. apply map_ext. intros i. do 2 f_equal. lia. }
  assert (Sn : exists r, point_names new = point_names (contents t) ++ r).
  { destruct (seam_names new []) as (r & X). exists r. rewrite X, C. reflexivity. }
  destruct Sn as (rest & Sn). rewrite Nm in Sn.
  split; [reflexivity|]. split; [exact R|]. split; [|split; [reflexivity|split; [reflexivity|split; [reflexivity|split]]]].
  - rewrite C, strip_elts. unfold new, batch_atoms. now rewrite marked_elts.
  - apply (NoDup_app_l _ rest). rewrite <- Sn. apply FinFun.Injective_map_NoDup; [|apply seq_NoDup].
    intros i j X. injection X. lia.
  - apply Forall_forall. intros a Ha.
    assert (Ha' : In a (map (fun i => NPair (NNum (N.of_nat i)) (NStr "tree")) (seq 0 (N.to_nat (size / (ng * dg)))))).
    { rewrite Sn. apply in_or_app. now left. }
    apply in_map_iff in Ha'. destruct Ha' as (i & <- & Hi). apply in_seq in Hi. eexists. split; [reflexivity|]. lia.
Qed.

Lemma empty_harness free (dg ng : N) (coord : G) :
  exists ev : eval, ev_inc_empty dg ng coord = Ok ev /\ ev_counter ev = 0%N /\ ev_names ev = 0%N /\
    harness free ev [] coord dg ng.
Proof.
  unfold ev_inc_empty. destruct (new_session (RM := RM) [] (Forall_nil _)) as (z' & t & Z & U & C).
  cbn [zrun] in Z. injection Z as <-. rewrite U. cbn [bind]. eexists. split; [reflexivity|]. split; [reflexivity|].
  split; [reflexivity|]. exists t. simpl in C. rewrite C. split; [reflexivity|].
  split; [exact (TR_unfocus free E M RM raz_new t (RR_new free E M RM) U)|].
  repeat split; try constructor.
Qed.
End Edits.

(** ** Indexes *)
Section IRaz.
Context {E G S : Type} {CG : Coord E G} {WS : WordRng S}.
Notation eval := (eval_raz E count G).

Lemma focus_work free (t : raz_tree E count) i : tree_reached free t -> (n_elts (contents t) < usize_mod)%N ->
  i <= length (elts (contents t)) ->
  exists z, rt_focus t (N.of_nat i : @Index E count _) = Ok (Some z) /\
    at_work free z (sz_at (fst (split_count i (contents t))) (snd (split_count i (contents t)))).
Proof.
  intros R N I. destruct (reached_focus_count free t i R N I) as (z & F & Se & _). exists z. split; [exact F|].
  split; [exact (RR_focus free E count _ t _ z R (lawful_count E) F)|].
  unfold sz_focus_count in Se. now destruct (split_count i (contents t)).
Qed.
Lemma split_count_join (l : list (atom E level)) : forall i, fst (split_count i l) ++ snd (split_count i l) = l.
Proof.
  induction l as [|[e|m n] l IH]; intros [|i]; try reflexivity; cbn [split_count].
  - specialize (IH i). destruct (split_count i l). simpl in *. now rewrite IH.
  - specialize (IH (Datatypes.S i)). destruct (split_count (Datatypes.S i) l). simpl in *. now rewrite IH.
Qed.

Lemma insert_spec free (ev : eval) xs g dg ng batch (rng : S) : harness free ev xs g dg ng ->
  (1 <= dg)%N -> (1 <= ng)%N -> (ng * dg < usize_mod)%N -> (ev_counter ev + batch < usize_max)%N ->
  (ev_names ev + batch / (ng * dg) + 1 < usize_mod)%N -> xs <> [] -> (N.of_nat (length xs) < usize_mod)%N ->
  forall t, ev_tree ev = Some t ->
  let loc := N.to_nat (fst (gen_usize g) mod N.of_nat (length xs)) in
  let g' := snd (gen_usize g) in
  exists t' ev', ev_insert ev batch rng = Ok (ev', state_after next_word (N.to_nat (batch / dg + 1)) rng) /\
    ev_tree ev' = Some t' /\ ev_counter ev' = (ev_counter ev + batch)%N /\
    ev_names ev' = (ev_names ev + batch / (ng * dg) + 1)%N /\
    (let (p, q) := split_count loc (contents t) in
     contents t' = p ++ seam (batch_atoms dg ng (nth_level rng) (ev_names ev) (ev_counter ev)
                              (drawn gen_elt (N.to_nat batch) g')) q ++ q) /\
    harness free ev' (firstn loc xs ++ drawn gen_elt (N.to_nat batch) g' ++ skipn loc xs)
      (state_after gen_elt (N.to_nat batch) g') dg ng.
Proof.
  intros H D Ng Ov Hc Hn Nx Lx t T loc g'. pose proof H as (t0 & T0 & R & X & Hg & Hd & Hng & _).
  rewrite T in T0. injection T0 as <-. unfold ev_insert. rewrite T. cbn [unwrap bind].
  assert (Le : count_n (rt_meta t) = N.of_nat (length xs)).
  { destruct (count_meta_acc t (tree_reached_good t R)) as [_ Cm]. rewrite Cm; unfold n_elts; rewrite X; auto. }
  rewrite Le, Hg. destruct (gen_usize g) as [r g1] eqn:Gu. cbn [fst snd] in loc, g'. subst g'.
  unfold usize_rem. destruct (N.eqb_spec (N.of_nat (length xs)) 0) as [Z|NZ].
  { destruct xs; [congruence|simpl in Z; lia]. }
  cbn [bind]. pose proof (N.mod_lt r (N.of_nat (length xs)) NZ) as Lt.
  destruct (focus_work free t loc R ltac:(unfold n_elts; rewrite X; assumption) ltac:(rewrite X; unfold loc; lia)) as (z & F & W).
  assert (Lo : N.of_nat loc = (r mod N.of_nat (length xs))%N) by (unfold loc; apply N2Nat.id).
  rewrite Lo in F. rewrite F. cbn [unwrap bind].
  rewrite <- X in H.
  destruct (edit_harness free ev t z _ _ g dg ng batch rng T R (split_count_join _ _) W H D Ng Ov Hc Hn g1)
    as (t' & ev' & Ed & -> & R' & C' & H').
  destruct (split_count_elts (contents t) loc) as [S1 S2]. rewrite S1, S2, X in H'.
  exists t'. eexists. split; [exact Ed|]. split; [reflexivity|]. split; [reflexivity|]. split; [reflexivity|].
  split; [|exact H']. now destruct (split_count loc (contents t)).
Qed.

Lemma insert_empty free (ev : eval) g dg ng batch (rng : S) : harness free ev [] g dg ng ->
  ev_insert ev batch rng = Panic "attempt to calculate the remainder with a divisor of zero".
Proof.
  intros (t & T & R & X & Hg & _). unfold ev_insert. rewrite T. cbn [unwrap bind].
  destruct (count_meta_acc t (tree_reached_good t R)) as [_ Cm]. rewrite Cm; unfold n_elts; rewrite X; [|reflexivity].
  destruct (gen_usize (ev_coord ev)). reflexivity.
Qed.

Lemma append_spec free (ev : eval) xs g dg ng batch (rng : S) : harness free ev xs g dg ng ->
  (1 <= dg)%N -> (1 <= ng)%N -> (ng * dg < usize_mod)%N -> (ev_counter ev + batch < usize_max)%N ->
  (ev_names ev + batch / (ng * dg) + 1 < usize_mod)%N -> (N.of_nat (length xs) < usize_mod)%N ->
  forall t, ev_tree ev = Some t ->
  exists t' ev', ev_append ev batch rng = Ok (ev', state_after next_word (N.to_nat (batch / dg + 1)) rng) /\
    ev_tree ev' = Some t' /\ ev_counter ev' = (ev_counter ev + batch)%N /\
    ev_names ev' = (ev_names ev + batch / (ng * dg) + 1)%N /\
    contents t' = contents t ++ strip (batch_atoms dg ng (nth_level rng) (ev_names ev) (ev_counter ev)
                              (drawn gen_elt (N.to_nat batch) g)) /\
    harness free ev' (xs ++ drawn gen_elt (N.to_nat batch) g) (state_after gen_elt (N.to_nat batch) g) dg ng.
Proof.
  intros H D Ng Ov Hc Hn Lx t T. pose proof H as (t0 & T0 & R & X & Hg & Hd & Hng & _).
  rewrite T in T0. injection T0 as <-. unfold ev_append. rewrite T. cbn [unwrap bind].
  assert (Le : count_n (rt_meta t) = N.of_nat (length xs)).
  { destruct (count_meta_acc t (tree_reached_good t R)) as [_ Cm]. rewrite Cm; unfold n_elts; rewrite X; auto. }
  rewrite Le.
  destruct (focus_work free t (length xs) R ltac:(unfold n_elts; rewrite X; assumption) ltac:(rewrite X; lia)) as (z & F & W).
  rewrite F. cbn [unwrap bind].
  assert (Sp : split_count (length xs) (contents t) = (contents t, [])).
  { rewrite <- X. destruct (good_ends t (tree_reached_good _ R)) as [_ [->|(_ & (e & r & ->))]]; [reflexivity|].
    apply split_count_full. }
  rewrite Sp in W. cbn [fst snd] in W. rewrite <- X in H.
  destruct (edit_harness free ev t z _ _ g dg ng batch rng T R (app_nil_r _) W H D Ng Ov Hc Hn g)
    as (t' & ev' & Ed & -> & R' & C' & H').
  replace (ev_set_coord ev g) with ev in Ed by (destruct ev; simpl in *; subst; reflexivity).
  rewrite X in H'. cbn [elts] in H'. rewrite app_nil_r in H', C'. unfold seam in C'. cbn [is_elt] in C'.
  exists t'. eexists. split; [exact Ed|]. split; [reflexivity|]. split; [reflexivity|]. split; [reflexivity|].
  split; [exact C'|exact H'].
Qed.

Theorem hops_spec free dg ng : (1 <= dg)%N -> (1 <= ng)%N -> (ng * dg < usize_mod)%N ->
  forall ops (ev : eval) xs g (rng : S), harness free ev xs g dg ng ->
  (N.of_nat (length xs) + hop_total ops < usize_max)%N -> (ev_counter ev + hop_total ops < usize_max)%N ->
  (ev_names ev + hop_names dg ng ops < usize_mod)%N ->
  match plain_hops gen_elt gen_usize (xs, g) ops with
  | Some (xs', g') => exists ev' rng', ev_hops ev rng ops = Ok (ev', rng') /\ harness free ev' xs' g' dg ng
  | None => ev_hops ev rng ops = Panic "attempt to calculate the remainder with a divisor of zero"
  end.
Proof.
  intros D Ng Ov. induction ops as [|o ops IH]; intros ev xs g rng H Hl Hc Hn.
  - simpl. eauto.
  - cbn [plain_hops ev_hops]. cbn [hop_total hop_names fold_right] in *. fold (hop_total ops) in *. fold (hop_names dg ng ops) in *.
    pose proof H as (t & T & _). unfold usize_max, usize_mod in *.
    destruct o as [b|b]; cbn [plain_hop ev_hop hop_batch] in *.
    + destruct (append_spec free ev xs g dg ng b rng H D Ng Ov ltac:(unfold usize_max; lia)
        ltac:(unfold usize_mod; lia) ltac:(unfold usize_mod; lia) t T) as (t' & ev' & Ed & _ & Cc & Cn & _ & H').
      rewrite Ed. cbn [bind]. apply IH; auto.
      * rewrite app_length, drawn_length. lia.
      * rewrite Cc. lia.
      * rewrite Cn. lia.
    + destruct xs as [|x xs].
      * rewrite (insert_empty free ev g dg ng b rng H). reflexivity.
      * destruct (insert_spec free ev (x :: xs) g dg ng b rng H D Ng Ov ltac:(unfold usize_max; lia)
          ltac:(unfold usize_mod; lia) ltac:(discriminate) ltac:(unfold usize_mod; lia) t T) as (t' & ev' & Ed & _ & Cc & Cn & _ & H').
        rewrite Ed. destruct (gen_usize g) as [r g1]. cbn [fst snd bind] in *. apply IH; auto.
        -- rewrite !app_length, drawn_length. rewrite <- (firstn_skipn (N.to_nat (r mod N.of_nat (length (x :: xs)))) (x :: xs)) in Hl at 1.
           rewrite app_length in Hl. lia.
        -- rewrite Cc. lia.
        -- rewrite Cn. lia.
Qed.
End IRaz.

(** ** The harness over [Vec] *)
Section Vec.
Context {E G : Type} {CG : Coord E G}.
Notation eval := (eval_vec E G).

Lemma push_all (l : list E) : forall v, fold_left (fun v e => v ++ [e]) l v = v ++ l.
Proof.
  induction l as [|x l IH]; intros v; simpl; [now rewrite app_nil_r|]. rewrite IH, <- app_assoc. reflexivity.
Qed.
Lemma vec_init_spec size (coord : G) :
  vec_inc_init size coord = (drawn gen_elt (N.to_nat size) coord, state_after gen_elt (N.to_nat size) coord).
Proof. unfold vec_inc_init. rewrite draw_eq, push_all. reflexivity. Qed.
Lemma vec_append_spec (xs : list E) (g : G) b :
  vec_append (xs, g) b = (xs ++ drawn gen_elt (N.to_nat b) g, state_after gen_elt (N.to_nat b) g).
Proof. unfold vec_append. cbn [fst snd]. rewrite draw_eq, push_all. reflexivity. Qed.
Lemma vec_extend_spec (xs : list E) (g : G) b :
  vec_extend (xs, g) b = (xs ++ drawn gen_elt (N.to_nat b) g, state_after gen_elt (N.to_nat b) g).
Proof. unfold vec_extend. cbn [fst snd]. rewrite draw_eq. reflexivity. Qed.

Lemma insert_many (l : list E) i : forall v, i <= length v ->
  fold_res (fun v e => vec_insert_at v (N.of_nat i) e) l v = Ok (firstn i v ++ rev l ++ skipn i v).
Proof.
  induction l as [|x l IH]; intros v H.
  - cbn [fold_res rev app]. now rewrite firstn_skipn.
  - cbn [fold_res]. unfold vec_insert_at at 1. unfold vec_len. destruct (N.ltb_spec (N.of_nat (length v)) (N.of_nat i)); [lia|].
    cbn [bind]. rewrite Nat2N.id. rewrite IH.
    + assert (L : length (firstn i v) = i) by (apply firstn_length_le; lia).
      rewrite firstn_app, skipn_app, L, Nat.sub_diag, firstn_firstn, Nat.min_id, (skipn_all2 (firstn i v)) by (rewrite L; constructor).
      cbn [firstn skipn app rev]. rewrite app_nil_r, <- app_assoc. reflexivity.
    + rewrite app_length, firstn_length_le by lia. lia.
Qed.
Lemma vec_insert_spec (xs : list E) (g : G) b : xs <> [] ->
  let g1 := state_after gen_elt (N.to_nat b) g in
  let loc := N.to_nat (fst (gen_usize g1) mod N.of_nat (length xs)) in
  vec_insert (xs, g) b = Ok (firstn loc xs ++ rev (drawn gen_elt (N.to_nat b) g) ++ skipn loc xs, snd (gen_usize g1)).
Proof.
  intros Nx g1 loc. unfold vec_insert. cbn [fst snd]. rewrite draw_eq. fold g1. destruct (gen_usize g1) as [r g2] eqn:Gu.
  cbn [fst snd] in *. unfold usize_rem, vec_len. destruct (N.eqb_spec (N.of_nat (length xs)) 0) as [Z|NZ].
  { destruct xs; [congruence|simpl in Z; lia]. }
  cbn [bind]. pose proof (N.mod_lt r (N.of_nat (length xs)) NZ) as Lt.
  assert (Lo : N.of_nat loc = (r mod N.of_nat (length xs))%N) by (unfold loc; apply N2Nat.id).
  rewrite <- Lo, insert_many by (unfold loc; lia). reflexivity.
Qed.
Lemma vec_insert_empty (g : G) b :
  vec_insert ([] : list E, g) b = Panic "attempt to calculate the remainder with a divisor of zero".
Proof. unfold vec_insert. cbn [fst snd]. rewrite draw_eq. now destruct (gen_usize _). Qed.
End Vec.

(** ** Names *)
Section NameIndex.
Context {E G S : Type} {CG : Coord E G} {WS : WordRng S}.
Notation eval := (eval_raz E names G).

Lemma evn_append_spec free (ev : eval) xs g dg ng batch (rng : S) : harness free ev xs g dg ng ->
  (1 <= dg)%N -> (1 <= ng)%N -> (ng * dg < usize_mod)%N -> (ev_counter ev + batch < usize_max)%N ->
  (ev_names ev + batch / (ng * dg) + 1 < usize_mod)%N ->
  forall t, ev_tree ev = Some t ->
  exists t' ev', evn_append ev batch rng = Ok (ev', state_after next_word (N.to_nat (batch / dg + 1)) rng) /\
    ev_tree ev' = Some t' /\ ev_counter ev' = (ev_counter ev + batch)%N /\
    ev_names ev' = (ev_names ev + batch / (ng * dg) + 1)%N /\
    contents t' = contents t ++ strip (batch_atoms dg ng (nth_level rng) (ev_names ev) (ev_counter ev)
                              (drawn gen_elt (N.to_nat batch) g)) /\
    harness free ev' (xs ++ drawn gen_elt (N.to_nat batch) g) (state_after gen_elt (N.to_nat batch) g) dg ng.
Proof.
  intros H D Ng Ov Hc Hn t T. pose proof H as (t0 & T0 & R & X & Hg & Hd & Hng & _).
  rewrite T in T0. injection T0 as <-. unfold evn_append. rewrite T. cbn [unwrap bind].
  destruct (proj2 (names_ends free E t R)) as (z & F & Se).
  change (rt_focus t idx_last) with (rt_focus t (PRight : @Index E names _)). rewrite F. cbn [unwrap bind].
  assert (W : at_work free z (sz_at (contents t) [])).
  { split; [exact (RR_focus free E names _ t _ z R (lawful_names E) F)|exact Se]. }
  rewrite <- X in H.
  destruct (edit_harness free ev t z _ _ g dg ng batch rng T R (app_nil_r _) W H D Ng Ov Hc Hn g)
    as (t' & ev' & Ed & -> & R' & C' & H').
  replace (ev_set_coord ev g) with ev in Ed by (destruct ev; simpl in *; subst; reflexivity).
  rewrite X in H'. cbn [elts] in H'. rewrite app_nil_r in H', C'. unfold seam in C'. cbn [is_elt] in C'.
  exists t'. eexists. split; [exact Ed|]. split; [reflexivity|]. split; [reflexivity|]. split; [reflexivity|].
  split; [exact C'|exact H'].
Qed.

Lemma evn_insert_spec free (ev : eval) xs g dg ng batch (rng : S) order : harness free ev xs g dg ng ->
  (1 <= dg)%N -> (1 <= ng)%N -> (ng * dg < usize_mod)%N -> (ev_counter ev + batch < usize_max)%N ->
  (ev_names ev + batch / (ng * dg) + 1 < usize_mod)%N ->
  forall t, ev_tree ev = Some t -> Permutation (order (names_keys (rt_meta t))) (names_keys (rt_meta t)) ->
  point_names (contents t) <> [] ->
  let g' := snd (gen_usize g) in
  let ks := order (names_keys (rt_meta t)) in
  exists t' ev' p lev n q, contents t = p ++ Mark lev (Some n) :: q /\
    nth_error ks (N.to_nat (fst (gen_usize g) mod N.of_nat (length ks))) = Some n /\
    evn_insert order ev batch rng = Ok (ev', state_after next_word (N.to_nat (batch / dg + 1)) rng) /\
    ev_tree ev' = Some t' /\ ev_counter ev' = (ev_counter ev + batch)%N /\
    ev_names ev' = (ev_names ev + batch / (ng * dg) + 1)%N /\
    contents t' = p ++ strip (batch_atoms dg ng (nth_level rng) (ev_names ev) (ev_counter ev)
                         (drawn gen_elt (N.to_nat batch) g')) ++ Mark lev (Some n) :: q /\
    harness free ev' (elts p ++ drawn gen_elt (N.to_nat batch) g' ++ elts q)
      (state_after gen_elt (N.to_nat batch) g') dg ng.
Proof.
  intros H D Ng Ov Hc Hn t T P Ne g' ks. pose proof H as (t0 & T0 & R & X & Hg & Hd & Hng & ND & _).
  rewrite T in T0. injection T0 as <-. unfold evn_insert. rewrite T. cbn [unwrap bind]. fold ks. rewrite Hg.
  pose proof (tree_reached_good t R) as Go. pose proof (names_meta_acc t Go) as Acc.
  assert (Nk : ks <> []).
  { intros K. unfold ks in K. rewrite K in P. apply Permutation_nil in P. rewrite P in Acc. clear - Acc Ne.
    destruct (point_names (contents t)) as [|n l]; [congruence|]. exact (proj2 (Acc n) (or_introl eq_refl)). }
  destruct (gen_usize g) as [r g1] eqn:Gu. cbn [fst snd] in *. subst g'.
  unfold usize_rem. destruct (N.eqb_spec (N.of_nat (length ks)) 0) as [Z|NZ].
  { destruct ks; [congruence|simpl in Z; lia]. }
  cbn [bind]. pose proof (N.mod_lt r (N.of_nat (length ks)) NZ) as Lt.
  destruct (nth_error ks (N.to_nat (r mod N.of_nat (length ks)))) as [n|] eqn:Nt.
  2:{ apply nth_error_None in Nt. lia. }
  cbn [unwrap bind].
  assert (In1 : In n (point_names (contents t))).
  { apply Acc. apply (Permutation_in n P). exact (nth_error_In _ _ Nt). }
  assert (C1 : count_occ name_eq_dec (point_names (contents t)) n = 1).
  { pose proof (proj1 (NoDup_count_occ name_eq_dec _) ND n).
    pose proof (proj1 (count_occ_In name_eq_dec _ n) In1). lia. }
  destruct (reached_focus_name free t n R C1) as (z & p & lev & q & Cs & F & Se).
  rewrite F. cbn [unwrap bind].
  assert (W : at_work free z (sz_at p (Mark lev (Some n) :: q))).
  { split; [exact (RR_focus free E names _ t _ z R (lawful_names E) F)|exact Se]. }
  rewrite <- X in H.
  destruct (edit_harness free ev t z _ _ g dg ng batch rng T R (eq_sym Cs) W H D Ng Ov Hc Hn g1)
    as (t' & ev' & Ed & -> & R' & C' & H').
  exists t'. eexists. exists p, lev, n, q. split; [exact Cs|]. split; [reflexivity|].
  split; [exact Ed|]. split; [reflexivity|]. split; [reflexivity|]. split; [reflexivity|].
  split; [exact C'|exact H'].
Qed.

Lemma evn_insert_none free (ev : eval) xs g dg ng batch (rng : S) order : harness free ev xs g dg ng ->
  forall t, ev_tree ev = Some t -> Permutation (order (names_keys (rt_meta t))) (names_keys (rt_meta t)) ->
  point_names (contents t) = [] ->
  evn_insert order ev batch rng = Panic "attempt to calculate the remainder with a divisor of zero".
Proof.
  intros (t0 & T0 & R & _) t T P Nn. rewrite T in T0. injection T0 as <-.
  unfold evn_insert. rewrite T. cbn [unwrap bind]. pose proof (names_meta_acc t (tree_reached_good t R)) as Acc.
  assert (K : names_keys (rt_meta t) = []).
  { rewrite Nn in Acc. clear P. destruct (names_keys (rt_meta t)) as [|n l]; [reflexivity|].
    destruct (proj1 (Acc n) (or_introl eq_refl)). }
  rewrite K in *. apply Permutation_sym, Permutation_nil in P. rewrite P.
  destruct (gen_usize (ev_coord ev)). reflexivity.
Qed.

(** With a name in the tree every history of edits goes through. *)
Theorem evn_hops_spec free dg ng : (1 <= dg)%N -> (1 <= ng)%N -> (ng * dg < usize_mod)%N ->
  forall ops (ev : eval) xs g (rng : S) t, harness free ev xs g dg ng -> ev_tree ev = Some t ->
  point_names (contents t) <> [] ->
  Forall (fun o => forall l, Permutation (fst o l) l) ops ->
  (ev_counter ev + hop_total (map snd ops) < usize_max)%N ->
  (ev_names ev + hop_names dg ng (map snd ops) < usize_mod)%N ->
  exists ev' rng' xs' g', evn_hops ev rng ops = Ok (ev', rng') /\ harness free ev' xs' g' dg ng /\
    loose_hops gen_elt gen_usize (xs, g) (map snd ops) (xs', g').
Proof.
  intros D Ng Ov. induction ops as [|[order o] ops IH]; intros ev xs g rng t H T Ne Fo Hc Hn.
  - cbn [evn_hops map]. do 4 eexists. split; [reflexivity|]. split; [exact H|constructor].
  - cbn [evn_hops map snd]. cbn [map snd hop_total hop_names fold_right] in *.
    fold (hop_total (map snd ops)) in *. fold (hop_names dg ng (map snd ops)) in *.
    inversion Fo as [|? ? Po Fo']; subst. cbn [fst] in Po. unfold usize_max, usize_mod in *.
    destruct o as [b|b]; cbn [evn_hop hop_batch] in *.
    + destruct (evn_append_spec free ev xs g dg ng b rng H D Ng Ov ltac:(unfold usize_max; lia)
        ltac:(unfold usize_mod; lia) t T) as (t' & ev' & Ed & T' & Cc & Cn & C' & H').
      rewrite Ed. cbn [bind].
      destruct (IH ev' _ _ (state_after next_word (N.to_nat (b / dg + 1)) rng) t' H' T') as (e1 & r1 & x1 & g1 & U & V & L); auto.
      * rewrite C', point_names_app. destruct (point_names (contents t)); [congruence|discriminate].
      * rewrite Cc. lia.
      * rewrite Cn. lia.
      * exists e1, r1, x1, g1. split; [exact U|]. split; [exact V|]. now constructor.
    + destruct (evn_insert_spec free ev xs g dg ng b rng order H D Ng Ov ltac:(unfold usize_max; lia)
        ltac:(unfold usize_mod; lia) t T (Po _) Ne) as (t' & ev' & p & lev & n & q & Ct & _ & Ed & T' & Cc & Cn & C' & H').
      rewrite Ed. cbn [bind].
      destruct (IH ev' _ _ (state_after next_word (N.to_nat (b / dg + 1)) rng) t' H' T') as (e1 & r1 & x1 & g1 & U & V & L); auto.
      * rewrite C', !point_names_app, point_names_mark. simpl. destruct (point_names p), (point_names (strip _)); discriminate.
      * rewrite Cc. lia.
      * rewrite Cn. lia.
      * exists e1, r1, x1, g1. split; [exact U|]. split; [exact V|].
        destruct H as (t0 & T0 & _ & X & _). rewrite T in T0. injection T0 as <-.
        rewrite Ct, elts_app in X. cbn [elts] in X. rewrite <- X. now constructor.
Qed.
End NameIndex.

(** ** What is left of the last archive point *)
Section Last.
Context {E : Type}.

Lemma strip_marked us ns lev nm (xs : list E) x k :
  strip (marked us ns lev nm k (xs ++ [x])) = marked us ns lev nm k xs ++ [Elt x].
Proof.
  rewrite marked_app, marked_cons. cbn [marked]. rewrite app_nil_r. unfold strip. rewrite rev_app_distr.
  destruct ((k + N.of_nat (length xs) + 1) mod us =? 0)%N; cbn [rev app].
  - rewrite rev_involutive. reflexivity.
  - reflexivity.
Qed.
End Last.

Section Starts.
Context {E M G S : Type} {RM : RazMeta E M} {CG : Coord E G} {WS : WordRng S}.
Notation eval := (eval_raz E M G).

(** The names in a new tree: one fewer if the gauges divide the size. *)
Lemma init_point_names (size dg ng : N) (coord : G) (rng : S) (ev : eval) rng' t :
  (1 <= dg)%N -> (1 <= ng)%N -> (ng * dg < usize_mod)%N -> (size < usize_mod)%N ->
  ev_inc_init size dg ng coord rng = Ok (ev, rng') -> ev_tree ev = Some t ->
  point_names (contents t) = map (fun i => NPair (NNum (N.of_nat i)) (NStr "tree")) (seq 0 (N.to_nat ((size - 1) / (ng * dg)))).
Proof.
  intros D Ng Ov Hs I T. destruct (inc_init_spec false size dg ng coord rng D Ng Ov Hs) as (t0 & I0 & _ & C).
  rewrite I in I0. injection I0 as -> _. cbn [ev_tree] in T. injection T as <-. rewrite C.
  destruct (N.eq_dec size 0) as [->|Nz].
  - change (0 - 1)%N with 0%N. rewrite N.div_small by nia. reflexivity.
  - assert (Sz : drawn gen_elt (N.to_nat size) coord = drawn gen_elt (N.to_nat (size - 1)) coord ++ [nth_draw gen_elt (N.to_nat (size - 1)) coord]).
    { unfold drawn. replace (N.to_nat size) with (N.to_nat (size - 1) + 1) by lia. rewrite seq_app, map_app. reflexivity. }
    rewrite Sz. unfold batch_atoms. rewrite strip_marked, point_names_app. cbn [point_names].
    rewrite marked_names by assumption. rewrite drawn_length, N2Nat.id, N.add_0_l, (N.div_small 0) by nia.
    rewrite N.sub_0_r. change (point_names [Elt ?x]) with (@nil name). rewrite app_nil_r.
    apply map_ext. intros i. do 2 f_equal. lia.
Qed.
End Starts.

(** ** Computations *)
Section Comps.
Context {E M G : Type} {RM : RazMeta E M}.
Notation eval := (eval_raz E M G).

Lemma visit_elts {O} (f : O -> E -> O) (l : list (atom E level)) : forall a,
  fold_left (sp_visit f (fun a _ => a)) l a = fold_left f (elts l) a.
Proof. induction l as [|[e|m n] l IH]; intros a; simpl; auto. Qed.

Lemma comps_agree free (ev : eval) xs g dg ng : harness free ev xs g dg ng ->
  (forall O (a : O) f, ev_comp_fold a f ev = Ok (vec_comp_fold a f (xs, g))) /\
  ev_comp_fold [] (fun a e => e :: a) ev = Ok (vec_comp_rev (xs, g)) /\
  (forall O (a : O) f (n : O -> level * option name -> O), (forall a x, n a x = a) ->
     ev_comp_fold_meta a f n ev = Ok (vec_comp_fold_meta a f n (xs, g))) /\
  (forall leb, total_preorder leb -> ev_comp_max leb ev = Ok (vec_comp_max leb (xs, g))) /\
  (forall O (init : E -> O) bin, (forall a b c, bin (bin a b) c = bin a (bin b c)) ->
     ev_comp_tfold init bin ev = Ok (reduce bin (vec_comp_map init (xs, g)))) /\
  (forall O N (RN : RazMeta O N) (f : E -> O), exists t' : raz_tree O N,
     ev_comp_map f ev = Ok t' /\ tree_reached free t' /\ elts (contents t') = vec_comp_map f (xs, g)).
Proof.
  intros (t & T & R & X & _).
  unfold ev_comp_fold, ev_comp_fold_meta, ev_comp_max, ev_comp_tfold, ev_comp_map,
    vec_comp_fold, vec_comp_fold_meta, vec_comp_max, vec_comp_map.
  rewrite T. cbn [unwrap bind fst]. pose proof (proj1 (tree_reached_good t R)) as Go.
  split; [|split; [|split; [|split; [|split]]]].
  - intros O a f. rewrite fold_lr_meta_atoms by exact Go. rewrite visit_elts, X. reflexivity.
  - rewrite fold_lr_meta_atoms by exact Go. rewrite visit_elts, X. unfold vec_comp_rev. cbn [fst]. f_equal.
    rewrite <- fold_left_rev_right, <- (app_nil_r (rev xs)). induction (rev xs) as [|e l IH]; simpl; congruence.
  - intros O a f n Hn. rewrite fold_lr_meta_atoms by exact Go. f_equal. rewrite <- X, <- visit_elts.
    clear - Hn. revert a. induction (contents t) as [|[e|m k] l IH]; intros a; simpl; auto. rewrite Hn. apply IH.
  - intros leb tp. rewrite <- X. exact (proj2 (max_tree_ok leb tp free t R)).
  - intros O init bin As. rewrite <- X. exact (fold_up_assoc init bin t As Go).
  - intros O N RN f. destruct (map_ok (N := N) f t (tree_reached_good t R)) as (t' & Mt & _ & _ & C & _).
    exists t'. split; [exact Mt|]. split; [exact (TR_map _ _ _ _ _ _ _ f t t' R Mt)|].
    rewrite C, <- X. clear. induction (contents t) as [|[e|m n] l IH]; simpl; congruence.
Qed.

Lemma comps_structured free (ev : eval) t : ev_tree ev = Some t -> tree_reached free t ->
  (forall O (a : O) f n, ev_comp_fold_meta a f n ev = Ok (fold_left (sp_visit f n) (contents t) a)) /\
  (forall O (a : O) f ff n, ev_comp_fold_archive a f ff n ev =
     Ok match contents t with [] => a | l => sp_lr_archive f ff n (Some (NStr "start")) a l end) /\
  (contents t <> [] -> forall O (P : list (atom E level) -> O -> Prop),
    (forall init bin binnl, (forall e, P [Elt e] (init e)) ->
       (forall v x e, P (map Elt v) x -> P (map Elt (v ++ [e])) (bin x (init e))) ->
       (forall lv nm a b x y, (1 <= lv)%N -> P a x -> P b y -> P (a ++ Mark lv nm :: b) (binnl x lv nm y)) ->
       exists x, ev_comp_tfoldnl init bin binnl ev = Ok (Some x) /\ P (contents t) x) /\
    (forall init bin, (forall v, v <> [] -> exists x, init v = Ok x /\ P (map Elt v) x) ->
       (forall lv nm a b x y, (1 <= lv)%N -> P a x -> P b y ->
          exists z, bin x lv nm y = Ok z /\ P (a ++ Mark lv nm :: b) z) ->
       exists x, ev_comp_tfoldg init bin ev = Ok (Some x) /\ P (contents t) x)).
Proof.
  intros T R. pose proof (proj1 (tree_reached_good t R)) as Go.
  unfold ev_comp_fold_meta, ev_comp_fold_archive, ev_comp_tfoldnl, ev_comp_tfoldg. rewrite T. cbn [unwrap bind].
  split; [|split].
  - intros O a f n. now rewrite fold_lr_meta_atoms.
  - intros O a f ff n. now rewrite fold_lr_archive_atoms.
  - intros Ne O P. split.
    + intros init bin binnl H1 H2 H3. exact (fold_up_nl_ok init bin binnl P t H1 H2 H3 Go Ne).
    + intros init bin H1 H2. exact (fold_up_gauged_ok init bin P t H1 H2 Go Ne).
Qed.
End Comps.

(** ** Histories from the start *)
Section FromStart.
Context {E M G S : Type} {RM : RazMeta E M} {CG : Coord E G} {WS : WordRng S}.

Lemma init_elements free (size dg ng : N) (coord : G) (rng : S) :
  (1 <= dg)%N -> (1 <= ng)%N -> (ng * dg < usize_mod)%N -> (size < usize_mod)%N ->
  exists (ev : eval_raz E M G) rng' t, ev_inc_init size dg ng coord rng = Ok (ev, rng') /\
    ev_tree ev = Some t /\ tree_reached free t /\ elts (contents t) = drawn gen_elt (N.to_nat size) coord /\
    point_names (contents t) =
      map (fun i => NPair (NNum (N.of_nat i)) (NStr "tree")) (seq 0 (N.to_nat ((size - 1) / (ng * dg)))).
Proof.
  intros D Ng Ov Hs. destruct (init_harness free size dg ng coord rng D Ng Ov Hs) as (ev & rng' & I & _ & _ & t & T & R & X & _).
  exists ev, rng', t. split; [exact I|]. split; [exact T|]. split; [exact R|]. split; [exact X|].
  exact (init_point_names size dg ng coord rng ev rng' t D Ng Ov Hs I T).
Qed.

Lemma init_zero (size dg ng : N) (coord : G) (rng : S) : (dg = 0 \/ ng = 0)%N ->
  (ev_inc_init size dg ng coord rng : res (eval_raz E M G * S)) = Panic "attempt to divide by zero".
Proof.
  intros H. unfold ev_inc_init, usize_div at 1, usize_mul at 1.
  replace (ng * dg)%N with 0%N by (destruct H; subst; lia). reflexivity.
Qed.
End FromStart.

Section Whole.
Context {E G S : Type} {CG : Coord E G} {WS : WordRng S}.

Lemma plain_length ops : forall (st : list E * G) xs g, plain_hops gen_elt gen_usize st ops = Some (xs, g) ->
  N.of_nat (length xs) = (N.of_nat (length (fst st)) + hop_total ops)%N.
Proof.
  induction ops as [|o ops IH]; intros [ys h] xs g P; cbn [plain_hops] in P.
  - injection P as <- <-. simpl. lia.
  - destruct (plain_hop gen_elt gen_usize (ys, h) o) as [[zs k]|] eqn:O; [|discriminate].
    rewrite (IH _ _ _ P). cbn [fst]. cbn [hop_total fold_right]. fold (hop_total ops).
    assert (N.of_nat (length zs) = N.of_nat (length ys) + hop_batch o)%N; [|lia].
    destruct o as [b|b]; cbn [plain_hop hop_batch] in *.
    + injection O as <- <-. rewrite app_length, drawn_length. lia.
    + destruct ys as [|y ys]; [discriminate|]. destruct (gen_usize h) as [r h1].
      set (loc := N.to_nat (r mod N.of_nat (length (y :: ys)))) in *.
      pose proof (firstn_skipn loc (y :: ys)) as FS. apply (f_equal (@length E)) in FS. rewrite app_length in FS.
      injection O as <- <-. rewrite !app_length, drawn_length. lia.
Qed.

Lemma history_from_init free (size dg ng : N) ops (coord : G) (rng : S) :
  (1 <= dg)%N -> (1 <= ng)%N -> (ng * dg < usize_mod)%N -> (size + hop_total ops < usize_max)%N ->
  (size / (ng * dg) + hop_names dg ng ops < usize_mod)%N ->
  let start := (drawn gen_elt (N.to_nat size) coord, state_after gen_elt (N.to_nat size) coord) in
  let run := do ' (ev, rng) <- (ev_inc_init size dg ng coord rng : res (eval_raz E count G * S)); ev_hops ev rng ops in
  match plain_hops gen_elt gen_usize start ops with
  | Some (xs, g) => exists ev rng' t, run = Ok (ev, rng') /\ ev_tree ev = Some t /\ tree_reached free t /\
      elts (contents t) = xs /\ ev_coord ev = g /\ count_n (rt_meta t) = N.of_nat (length xs)
  | None => run = Panic "attempt to calculate the remainder with a divisor of zero"
  end.
Proof.
  intros D Ng Ov Ht Hn start run. unfold usize_max in Ht.
  destruct (init_harness (RM := count_meta E) free size dg ng coord rng D Ng Ov ltac:(unfold usize_mod; lia))
    as (ev & rng' & I & Cc & Cn & H).
  unfold run. rewrite I. cbn [bind].
  pose proof (hops_spec free dg ng D Ng Ov ops ev _ _ rng' H) as X. rewrite drawn_length, N2Nat.id, Cc, Cn in X.
  specialize (X ltac:(unfold usize_max; lia) ltac:(unfold usize_max; lia) Hn). fold start in X.
  destruct (plain_hops gen_elt gen_usize start ops) as [[xs g]|] eqn:P; [|exact X].
  destruct X as (ev' & r' & U & t & T & R & El & Gc & _). exists ev', r', t.
  split; [exact U|]. split; [exact T|]. split; [exact R|]. split; [exact El|]. split; [exact Gc|].
  destruct (count_meta_acc t (tree_reached_good t R)) as [_ Cm]. unfold n_elts in Cm. rewrite El in Cm. apply Cm.
  pose proof (plain_length ops start xs g P) as L. unfold start in L. cbn [fst] in L. rewrite drawn_length in L. unfold usize_mod. lia.
Qed.

Lemma history_names free (size dg ng : N) ops (coord : G) (rng : S) :
  (1 <= dg)%N -> (1 <= ng)%N -> (ng * dg < usize_mod)%N -> (size + hop_total ops < usize_max)%N ->
  (size / (ng * dg) + hop_names dg ng ops < usize_mod)%N ->
  forall (ev : eval_raz E count G) rng' t,
  (do ' (ev, rng) <- ev_inc_init size dg ng coord rng; ev_hops ev rng ops) = Ok (ev, rng') ->
  ev_tree ev = Some t -> tree_reached free t /\ NoDup (point_names (contents t)).
Proof.
  intros D Ng Ov Ht Hn ev1 r1 t1 Run T1. unfold usize_max in Ht.
  destruct (init_harness (RM := count_meta E) free size dg ng coord rng D Ng Ov ltac:(unfold usize_mod; lia))
    as (ev & rng' & I & Cc & Cn & H).
  rewrite I in Run. cbn [bind] in Run.
  pose proof (hops_spec free dg ng D Ng Ov ops ev _ _ rng' H) as X. rewrite drawn_length, N2Nat.id, Cc, Cn in X.
  specialize (X ltac:(unfold usize_max; lia) ltac:(unfold usize_max; lia) Hn).
  destruct (plain_hops _ _ _ ops) as [[xs g]|]; [|congruence].
  destruct X as (ev' & r' & U & t & T & R & _ & _ & _ & _ & ND & _). rewrite Run in U. injection U as <- <-.
  rewrite T1 in T. injection T as <-. auto.
Qed.

Lemma appends_agree free (size dg ng : N) bs (coord : G) (rng : S) : let ops := map HAppend bs in
  (1 <= dg)%N -> (1 <= ng)%N -> (ng * dg < usize_mod)%N -> (size + hop_total ops < usize_max)%N ->
  (size / (ng * dg) + hop_names dg ng ops < usize_mod)%N ->
  exists (ev : eval_raz E count G) rng' t v,
    (do ' (ev, rng) <- ev_inc_init size dg ng coord rng; ev_hops ev rng ops) = Ok (ev, rng') /\
    ev_tree ev = Some t /\ vec_hops (vec_inc_init size coord) ops = Ok v /\
    tree_reached free t /\ elts (contents t) = fst v /\ ev_coord ev = snd v.
Proof.
  intros ops D Ng Ov Ht Hn. pose proof (history_from_init free size dg ng ops coord rng D Ng Ov Ht Hn) as H. cbn zeta in H.
  assert (V : forall st, exists v, vec_hops (st : eval_vec E G) ops = Ok v /\ plain_hops gen_elt gen_usize st ops = Some v).
  { unfold ops. clear. induction bs as [|b bs IH]; intros [xs g]; cbn [map vec_hops vec_hop plain_hops plain_hop]; [eauto|].
    cbn [bind]. rewrite vec_append_spec. apply IH. }
  destruct (V (vec_inc_init size coord)) as ([xs g] & V1 & V2). rewrite vec_init_spec in *. rewrite V2 in H.
  destruct H as (ev & r & t & U & T & R & X & C & _). exists ev, r, t, (xs, g). auto 10.
Qed.

Lemma extend_append (ev : eval_vec E G) b : vec_extend ev b = vec_append ev b.
Proof. destruct ev. now rewrite vec_extend_spec, vec_append_spec. Qed.

Lemma name_history free (size dg ng : N) ops (coord : G) (rng : S) :
  (1 <= dg)%N -> (1 <= ng)%N -> (ng * dg < size)%N -> (size < usize_mod)%N ->
  Forall (fun o : (list name -> list name) * hop => forall l, Permutation (fst o l) l) ops ->
  (hop_total (map snd ops) < usize_max)%N -> (size / (ng * dg) + hop_names dg ng (map snd ops) < usize_mod)%N ->
  exists (ev : eval_raz E names G) rng' t,
    (do ' (ev, rng) <- ev_inc_init size dg ng coord rng; evn_hops ev rng ops) = Ok (ev, rng') /\
    ev_tree ev = Some t /\ tree_reached free t /\ NoDup (point_names (contents t)) /\
    loose_hops gen_elt gen_usize (drawn gen_elt (N.to_nat size) coord, state_after gen_elt (N.to_nat size) coord)
      (map snd ops) (elts (contents t), ev_coord ev).
Proof.
  intros D Ng Sz Hs Fo Ht Hn. assert (Ov : (ng * dg < usize_mod)%N) by (eapply N.lt_trans; eassumption).
  destruct (init_harness (RM := names_meta E) free size dg ng coord rng D Ng Ov Hs) as (ev & rng' & I & Cc & Cn & H).
  rewrite I. cbn [bind]. pose proof H as (t & T & _).
  destruct (evn_hops_spec free dg ng D Ng Ov ops ev _ _ rng' t H T) as (ev' & r' & xs & g & U & (t' & T' & R & X & Gc & _ & _ & ND & _) & L); auto.
  - rewrite (init_point_names size dg ng coord rng ev rng' t D Ng Ov Hs I T).
    pose proof (N.div_le_mono (ng * dg) (size - 1) (ng * dg) ltac:(nia) ltac:(lia)) as Mo. rewrite N.div_same in Mo by nia.
    destruct (N.to_nat ((size - 1) / (ng * dg))) eqn:Q; [lia|discriminate].
  - now rewrite Cc.
  - now rewrite Cn.
  - exists ev', r', t'. split; [exact U|]. split; [exact T'|]. split; [exact R|]. split; [exact ND|]. now rewrite X, Gc.
Qed.

Lemma name_too_small (size dg ng b : N) order (coord : G) (rng : S) :
  (1 <= dg)%N -> (1 <= ng)%N -> (ng * dg < usize_mod)%N -> (size <= ng * dg)%N ->
  (forall l, Permutation (order l) l) ->
  (do ' (ev, rng) <- (ev_inc_init size dg ng coord rng : res (eval_raz E names G * S)); evn_insert order ev b rng) =
  Panic "attempt to calculate the remainder with a divisor of zero".
Proof.
  intros D Ng Ov Hs P. assert (Hs' : (size < usize_mod)%N) by (eapply N.le_lt_trans; eassumption).
  destruct (init_harness (RM := names_meta E) false size dg ng coord rng D Ng Ov Hs') as (ev & rng' & I & _ & _ & H).
  rewrite I. cbn [bind]. pose proof H as (t & T & _).
  apply (evn_insert_none false ev _ _ dg ng b rng' order H t T (P _)).
  rewrite (init_point_names size dg ng coord rng ev rng' t D Ng Ov Hs' I T).
  rewrite N.div_small by nia. reflexivity.
Qed.
End Whole.
