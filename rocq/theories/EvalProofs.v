(** * Proofs about the test harnesses. *)

From Verif Require Import Base BaseFacts Spec SpecRaz StackModel AStackModel StackScripts StackProofs
  LevelTreeModel TreeCursorModel RazMetaModel RazModel TreeSpec TreeProofs CursorProofs RazView
  RazProofs RazUnfocus RazFocus RazIndex RazOps RazFrom RazScripts RazSession RazReach RazFacts RazMetaFacts
  LevelGenModel LevelGenProofs ExampleModel EvalModel EvalSpec.

(** ** Generators *)
Section Draw.
Context {A S : Type} (next : S -> A * S).

Lemma state_after_succ n s : state_after next (Datatypes.S n) s = state_after next n (snd (next s)).
Proof. unfold state_after. induction n as [|n IH]; [reflexivity|]. simpl in *. now rewrite IH. Qed.
Lemma drawn_succ n s : drawn next (Datatypes.S n) s = fst (next s) :: drawn next n (snd (next s)).
Proof.
  unfold drawn. simpl. f_equal. rewrite <- seq_shift, map_map. apply map_ext. intros i.
  unfold nth_draw. now rewrite state_after_succ.
Qed.
Lemma draw_eq n : forall s, draw next n s = (drawn next n s, state_after next n s).
Proof.
  induction n as [|n IH]; intros s; [reflexivity|]. cbn [draw]. rewrite drawn_succ, state_after_succ.
  destruct (next s) as [a s1]. cbn [fst snd]. now rewrite IH.
Qed.
Lemma drawn_length n s : length (drawn next n s) = n.
Proof. unfold drawn. now rewrite map_length, seq_length. Qed.
End Draw.

Lemma state_after_ext {A B S} (f : S -> A * S) (g : S -> B * S) n s :
  (forall s, snd (f s) = snd (g s)) -> state_after f n s = state_after g n s.
Proof.
  intros H. unfold state_after. induction n as [|n IH]; [reflexivity|]. simpl. now rewrite IH, H.
Qed.

(** The level drawn in the [i]-th place. *)
Definition nth_level {S} {W : WordRng S} (rng : S) (i : nat) : level := gen_branch_level (nth_draw next_word i rng).

Lemma draw_levels {S} {W : WordRng S} n (s : S) :
  draw gen_level n s = (map (nth_level s) (seq 0 n), state_after next_word n s).
Proof.
  assert (X : forall s : S, snd (gen_level s) = snd (next_word s)).
  { intros s0. unfold gen_level. now destruct (next_word s0). }
  rewrite draw_eq. f_equal; [|now apply state_after_ext].
  unfold drawn. apply map_ext. intros i. unfold nth_level, nth_draw.
  rewrite (state_after_ext gen_level next_word i s X). unfold gen_level. now destruct (next_word _).
Qed.

Lemma pos_even_zeros p : (1 <= trailing_zeros (2 * Npos p))%N.
Proof. simpl. lia. Qed.
Lemma gen_level_pos w : (1 <= gen_branch_level w)%N.
Proof.
  unfold gen_branch_level, shl1. change (2 ^ 64)%N with (2 * 2 ^ 63)%N.
  rewrite N.mul_mod_distr_l by lia. destruct (w mod 2 ^ 63)%N as [|p]; [simpl; lia|apply pos_even_zeros].
Qed.

(** ** Arithmetic *)
Lemma div_succ c d : (1 <= d)%N -> ((c + 1) / d = c / d + if (c + 1) mod d =? 0 then 1 else 0)%N.
Proof.
  intros D. pose proof (N.div_mod c d ltac:(lia)) as H. pose proof (N.mod_lt c d ltac:(lia)) as L.
  destruct (N.eq_dec (c mod d + 1) d) as [X|X].
  - assert (Y : (c + 1 = d * (c / d + 1) + 0)%N) by nia.
    rewrite <- (N.div_unique (c + 1) d (c / d + 1) 0 ltac:(lia) Y).
    rewrite <- (N.mod_unique (c + 1) d (c / d + 1) 0 ltac:(lia) Y). simpl. lia.
  - assert (Y : (c + 1 = d * (c / d) + (c mod d + 1))%N) by nia.
    rewrite <- (N.div_unique (c + 1) d (c / d) (c mod d + 1) ltac:(lia) Y).
    rewrite <- (N.mod_unique (c + 1) d (c / d) (c mod d + 1) ltac:(lia) Y).
    rewrite N.add_1_r, (proj2 (N.eqb_neq _ _) (N.neq_succ_0 _)). now rewrite N.add_0_r.
Qed.
Lemma mod_mul_zero c a b : (1 <= a)%N -> (1 <= b)%N -> (c mod (a * b) = 0)%N -> (c mod b = 0)%N.
Proof.
  intros A B H. apply N.mod_divide in H; [|nia]. destruct H as [k ->].
  rewrite N.mul_assoc. apply N.mod_mul. lia.
Qed.
Lemma div_batch c b d : (1 <= d)%N -> ((c + b) / d <= c / d + b / d + 1)%N.
Proof.
  intros D. pose proof (N.div_mod c d ltac:(lia)). pose proof (N.mod_lt c d ltac:(lia)).
  pose proof (N.div_mod b d ltac:(lia)). pose proof (N.mod_lt b d ltac:(lia)).
  assert (c + b < d * (c / d + b / d + 2))%N by nia.
  apply N.lt_succ_r. apply N.div_lt_upper_bound; lia.
Qed.

(** ** Editing a Raz under a session *)
Section Edit.
Context {E M : Type} {RM : RazMeta E M}.
Notation atoms := (list (atom E level)).

Definition at_work free (z : raz E M) (s : sraz E) : Prop := raz_reached free z /\ session z s.

Lemma work_push free z s e : at_work free z s -> at_work free (snd (push_left z e))
  (SRaz (Elt e :: s_left s) (s_right s) (s_lnew s) (s_rnew s)).
Proof.
  intros [R Se]. split.
  - apply (RR_step _ E M RM z (OPushL e) (OutLen (fst (push_left z e))) _ R I). simpl. now destruct (push_left z e).
  - intros ops Ho. destruct (Se (OPushL e :: ops) (Forall_cons (OPushL e) (I : zop_ok (OPushL e)) Ho)) as (z' & t & A & B & C).
    exists z', t. cbn [zrun zstep sz_run sz_step] in A, C. destruct (push_left z e) as [n z1].
    destruct (sz_push_left s e) as [n' s1] eqn:X. unfold sz_push_left in X. injection X as <- <-. unfold sp_push in *.
    cbn [bind snd] in *. destruct (zrun z1 ops) as [[xs z2]|m|]; cbn [bind] in A; try discriminate.
    destruct (sz_run _ ops) as [ys s2]. cbn [fst snd] in *. injection A as -> -> ->. auto.
Qed.

Lemma work_archive free z s e l lev nm : (1 <= lev)%N -> at_work free z s -> s_left s = Elt e :: l ->
  at_work free (archive_left z lev nm)
    (SRaz (Mark lev (point_name nm) :: s_left s) (s_right s) (Datatypes.S (s_lnew s)) (s_rnew s)).
Proof.
  intros L [R Se] Hl. split.
  - exact (RR_step _ E M RM z (OArchL lev nm) OutNone _ R L eq_refl).
  - intros ops Ho. destruct (Se (OArchL lev nm :: ops) (Forall_cons (OArchL lev nm) (L : zop_ok (OArchL lev nm)) Ho)) as (z' & t & A & B & C).
    exists z', t. cbn [zrun zstep sz_run sz_step bind] in A, C.
    unfold sz_archive_left in *. rewrite Hl in *. cbn [sp_archive] in *.
    destruct (zrun (archive_left z lev nm) ops) as [[xs z2]|m|]; cbn [bind] in A; try discriminate.
    destruct (sz_run _ ops) as [ys s2]. cbn [fst snd] in *. injection A as -> ->. auto.
Qed.

Lemma marked_cons us ns lev nm k x xs : (@marked E us ns lev nm k (x :: xs) =
  Elt x ::
      (if ((k + 1) mod us =? 0)
       then [Mark (lev ((k + 1) / us))
               (if ((k + 1) mod (ns * us) =? 0) then point_name (Some (NNum (nm ((k + 1) / (ns * us))))) else None)]
       else []) ++ marked us ns lev nm (k + 1) xs)%N.
Proof. reflexivity. Qed.

(** A whole batch. [nl] levels and [nn] names are available. *)
Lemma edit_fold free (us ns : N) (lev : N -> level) (nm : N -> N) data :
  (1 <= us)%N -> (1 <= ns)%N -> (ns * us < usize_mod)%N -> (forall j, 1 <= lev j)%N ->
  forall z s c nl nn, at_work free z s -> (c + N.of_nat (length data) < usize_mod)%N ->
  ((c + N.of_nat (length data)) / us <= c / us + N.of_nat nl)%N ->
  ((c + N.of_nat (length data)) / (ns * us) <= c / (ns * us) + N.of_nat nn)%N ->
  exists z' levs nms, fold_res (edit_step us ns) data
      (z, c, map (fun i => lev (c / us + 1 + N.of_nat i)%N) (seq 0 nl),
       map (fun i => Some (NNum (nm (c / (ns * us) + 1 + N.of_nat i)%N))) (seq 0 nn))
      = Ok (z', (c + N.of_nat (length data))%N, levs, nms) /\
    at_work free z' (SRaz (rev (marked us ns lev nm c data) ++ s_left s) (s_right s)
       (length (marks (marked us ns lev nm c data)) + s_lnew s) (s_rnew s)).
Proof.
  intros U Ns Ov Lp. induction data as [|x data IH]; intros z s c nl nn W Hc Hl Hn.
  - cbn [fold_res length]. rewrite N.add_0_r. do 3 eexists. split; [reflexivity|]. simpl. destruct s. exact W.
  - assert (Lc : (c + N.of_nat (length (x :: data)) = c + 1 + N.of_nat (length data))%N) by (simpl length; lia).
    rewrite Lc in *. cbn [fold_res]. unfold edit_step at 1.
    assert (Ad : usize_add c 1 = (c + 1)%N) by (unfold usize_add; apply N.mod_small; lia). rewrite Ad.
    assert (Mu : usize_mul ns us = (ns * us)%N) by (unfold usize_mul; apply N.mod_small; lia). rewrite Mu.
    unfold usize_rem. destruct (N.eqb_spec (ns * us) 0) as [|_]; [nia|]. destruct (N.eqb_spec us 0) as [|_]; [lia|].
    cbn [bind].
    pose proof (div_succ c us U) as Du. pose proof (div_succ c (ns * us) ltac:(nia)) as Dn.
    pose proof (work_push free z s x W) as W1. rewrite marked_cons.
    pose proof (N.div_le_mono (c + 1) (c + 1 + N.of_nat (length data)) us ltac:(lia) ltac:(lia)) as Mono.
    pose proof (N.div_le_mono (c + 1) (c + 1 + N.of_nat (length data)) (ns * us) ltac:(nia) ltac:(lia)) as Mono2.
    destruct (N.eqb_spec ((c + 1) mod (ns * us)) 0) as [Z|NZ].
    + pose proof (mod_mul_zero (c + 1) ns us Ns U Z) as Z'. rewrite Z' in *. cbn [N.eqb] in *.
      destruct nl as [|nl]; [lia|]. destruct nn as [|nn]; [lia|]. cbn [seq map next_or bind].
      rewrite !N.add_0_r.
      pose proof (work_archive free _ _ x (s_left s) (lev (c / us + 1)%N) (Some (NNum (nm (c / (ns * us) + 1)%N)))
        (Lp _) W1 eq_refl) as W2. cbn [s_left s_right s_lnew s_rnew] in W2.
      specialize (IH _ _ (c + 1)%N nl nn W2 ltac:(lia) ltac:(lia) ltac:(lia)).
      destruct IH as (z' & levs & nms & F & W3). exists z', levs, nms. split.
      * rewrite <- F. f_equal. f_equal; [f_equal|].
        -- rewrite <- seq_shift, map_map. apply map_ext. intros i. f_equal. lia.
        -- rewrite <- seq_shift, map_map. apply map_ext. intros i. do 3 f_equal. lia.
      * cbn [s_left s_right s_lnew s_rnew] in W3. simpl rev. rewrite <- !app_assoc.
        rewrite Du, Dn. cbn [app length marks]. rewrite <- plus_n_Sm in W3. exact W3.
    + destruct (N.eqb_spec ((c + 1) mod us) 0) as [Z|NZ2].
      * destruct nl as [|nl]; [lia|]. cbn [seq map next_or bind]. rewrite !N.add_0_r.
        pose proof (work_archive free _ _ x (s_left s) (lev (c / us + 1)%N) None (Lp _) W1 eq_refl) as W2.
        cbn [s_left s_right s_lnew s_rnew] in W2.
        specialize (IH _ _ (c + 1)%N nl nn W2 ltac:(lia) ltac:(lia) ltac:(lia)).
        destruct IH as (z' & levs & nms & F & W3). exists z', levs, nms. split.
        -- rewrite <- F. f_equal. f_equal; [f_equal|].
           ++ rewrite <- seq_shift, map_map. apply map_ext. intros i. f_equal. lia.
           ++ apply map_ext. intros i. do 3 f_equal. lia.
        -- cbn [s_left s_right s_lnew s_rnew] in W3. simpl rev. rewrite <- !app_assoc.
           rewrite Du. cbn [app length marks]. rewrite <- plus_n_Sm in W3. exact W3.
      * specialize (IH _ _ (c + 1)%N nl nn W1 ltac:(lia) ltac:(lia) ltac:(lia)).
        destruct IH as (z' & levs & nms & F & W3). exists z', levs, nms. split.
        -- cbn [bind]. rewrite <- F. f_equal. f_equal; [f_equal|].
           ++ apply map_ext. intros i. f_equal. lia.
           ++ apply map_ext. intros i. do 3 f_equal. lia.
        -- cbn [s_left s_right s_lnew s_rnew] in W3. simpl rev. rewrite <- !app_assoc.
           cbn [app length marks]. exact W3.
Qed.

(** Unfocusing with new atoms left of the cursor. *)
Lemma marked_nil us ns lev nm k xs : (@marked E us ns lev nm k xs) = [] -> xs = [].
Proof. destruct xs; [reflexivity|discriminate]. Qed.

Lemma seam_unfocus (p q new : atoms) : separated (p ++ q) ->
  (p ++ q = [] \/ ((exists e r, p ++ q = Elt e :: r) /\ (exists e r, p ++ q = r ++ [Elt e]))) ->
  sz_unfocus (SRaz (rev new ++ rev p) q (length (marks new)) 0) = p ++ seam new q ++ q.
Proof.
  intros Sp En. destruct (rev new) as [|a r] eqn:R.
  - assert (new = []) as -> by (rewrite <- (rev_involutive new), R; reflexivity).
    simpl app. simpl length. pose proof (unfocus_at p q Sp En) as U. unfold sz_at in U. rewrite U.
    unfold seam, strip. now destruct (is_elt q).
  - assert (Hn : new = rev r ++ [a]) by (rewrite <- (rev_involutive new), R; reflexivity).
    unfold seam, strip. rewrite R. unfold sz_unfocus. cbn [s_left s_right s_lnew s_rnew app].
    assert (L : rev (a :: r ++ rev p) = p ++ new).
    { rewrite Hn. simpl. now rewrite rev_app_distr, rev_involutive, <- app_assoc. }
    assert (L' : rev (r ++ rev p) = p ++ rev r) by now rewrite rev_app_distr, rev_involutive.
    destruct a as [e|m n].
    + destruct q as [|[f|m' n'] q]; cbn [is_elt]; rewrite L, ?app_nil_r, <- ?app_assoc; reflexivity.
    + destruct q as [|[f|m' n'] q]; cbn [is_elt].
      * rewrite L', !app_nil_r. reflexivity.
      * rewrite L, <- app_assoc. reflexivity.
      * rewrite andb_false_r. rewrite L', <- app_assoc. reflexivity.
Qed.
End Edit.

Section HarnessProofs.
Context {E M G S : Type} {RM : RazMeta E M} {CG : Coord E G} {WS : WordRng S}.
Notation atoms := (list (atom E level)).
Notation eval := (eval_raz E M G).

Lemma draw_names n : forall ev : eval, (ev_names ev + N.of_nat n < usize_mod)%N ->
  draw ev_next_name n ev = (map (fun i => NNum (ev_names ev + N.of_nat i)) (seq 0 n),
    EvalRaz (ev_tree ev) (ev_names ev + N.of_nat n) (ev_coord ev) (ev_counter ev) (ev_datagauge ev) (ev_namegauge ev)).
Proof.
  induction n as [|n IH]; intros ev H.
  - simpl. rewrite N.add_0_r. now destruct ev.
  - cbn [draw ev_next_name]. 
    assert (Ad : usize_add (ev_names ev) 1 = (ev_names ev + 1)%N) by (unfold usize_add; apply N.mod_small; lia).
    rewrite Ad. rewrite IH by (cbn [ev_names]; lia). cbn [ev_names ev_tree ev_coord ev_counter ev_datagauge ev_namegauge].
    cbn [seq map]. rewrite <- seq_shift, map_map. f_equal.
    + f_equal; [f_equal; lia|]. apply map_ext. intros i. f_equal. lia.
    + f_equal. lia.
Qed.

Lemma ev_edit_spec free (ev : eval) z p q batch (rng : S) :
  at_work free z (sz_at p q) -> separated (p ++ q) ->
  (p ++ q = [] \/ ((exists e r, p ++ q = Elt e :: r) /\ (exists e r, p ++ q = r ++ [Elt e]))) ->
  let dg := ev_datagauge ev in let ng := ev_namegauge ev in
  (1 <= dg)%N -> (1 <= ng)%N -> (ng * dg < usize_mod)%N -> (ev_counter ev + batch < usize_max)%N ->
  (ev_names ev + batch / (ng * dg) + 1 < usize_mod)%N ->
  exists t, ev_edit ev z batch rng = Ok (
      EvalRaz (Some t) (ev_names ev + batch / (ng * dg) + 1)%N (state_after gen_elt (N.to_nat batch) (ev_coord ev))
        (ev_counter ev + batch)%N dg ng,
      state_after next_word (N.to_nat (batch / dg + 1)) rng) /\
    tree_reached free t /\
    contents t = p ++ seam (batch_atoms dg ng (nth_level rng) (ev_names ev) (ev_counter ev)
                              (drawn gen_elt (N.to_nat batch) (ev_coord ev))) q ++ q.
Proof.
  intros W Sp En dg ng D Ng Ov Hc Hn. unfold ev_edit. fold dg. fold ng.
  assert (Mu : usize_mul ng dg = (ng * dg)%N) by (unfold usize_mul; apply N.mod_small; lia). rewrite Mu.
  unfold usize_div. destruct (N.eqb_spec dg 0) as [|_]; [lia|]. destruct (N.eqb_spec (ng * dg) 0) as [|_]; [nia|].
  cbn [bind]. rewrite draw_levels. unfold usize_max in Hc.
  assert (Bl : (batch / dg <= batch)%N) by (apply N.div_le_upper_bound; nia).
  assert (A1 : usize_add (batch / dg) 1 = (batch / dg + 1)%N).
  { unfold usize_add. apply N.mod_small. unfold usize_mod. lia. }
  assert (A2 : usize_add (batch / (ng * dg)) 1 = (batch / (ng * dg) + 1)%N).
  { unfold usize_add. apply N.mod_small. lia. }
  rewrite A1, A2. cbn [bind]. rewrite draw_names by (rewrite N2Nat.id; lia).
  cbn [ev_names ev_tree ev_coord ev_counter ev_datagauge ev_namegauge].
  rewrite draw_eq. set (data := drawn gen_elt (N.to_nat batch) (ev_coord ev)).
  assert (Ld : N.of_nat (length data) = batch) by (unfold data; rewrite drawn_length; apply N2Nat.id).
  set (c := ev_counter ev) in *.
  destruct (edit_fold free dg ng (fun j => nth_level rng (N.to_nat (j - c / dg - 1)))
    (fun j => ev_names ev + (j - c / (ng * dg) - 1))%N data D Ng Ov ltac:(intros; apply gen_level_pos)
    z _ c (N.to_nat (batch / dg + 1)) (N.to_nat (batch / (ng * dg) + 1)) W) as (z' & levs & nms & F & W').
  - rewrite Ld. unfold usize_mod. lia.
  - rewrite Ld, N2Nat.id. pose proof (div_batch c batch dg D). lia.
  - rewrite Ld, N2Nat.id. pose proof (div_batch c batch (ng * dg) ltac:(nia)). lia.
  - fold dg ng.
    assert (X : (z, c, map (nth_level rng) (seq 0 (N.to_nat (batch / dg + 1))),
      map Some (map (fun i : nat => NNum (ev_names ev + N.of_nat i)) (seq 0 (N.to_nat (batch / (ng * dg) + 1))))) =
      (z, c, map (fun i => nth_level rng (N.to_nat (c / dg + 1 + N.of_nat i - c / dg - 1))) (seq 0 (N.to_nat (batch / dg + 1))),
      map (fun i => Some (NNum (ev_names ev + (c / (ng * dg) + 1 + N.of_nat i - c / (ng * dg) - 1)))) (seq 0 (N.to_nat (batch / (ng * dg) + 1))))).
    { f_equal; [f_equal|].
      - apply map_ext. intros i. f_equal. lia.
      - rewrite map_map. apply map_ext. intros i. do 2 f_equal. lia. }
    rewrite X, F. cbn [bind]. destruct W' as [R' Se']. destruct (Se' [] (Forall_nil _)) as (z2 & t & Z & U & C).
    cbn [zrun] in Z. injection Z as <-. rewrite U. cbn [bind]. exists t. split; [|split].
    + rewrite Ld, N2Nat.id, N.add_assoc. reflexivity.
    + exact (TR_unfocus free E M RM z' t R' U).
    + rewrite C. cbn [sz_run snd sz_at s_left s_right s_lnew s_rnew]. rewrite Nat.add_0_r.
      apply seam_unfocus; assumption.
Qed.

(** ** [inc_init] *)
Lemma times_mul {T} (f : T -> res T) a b : forall s, times a (times b f) s = times (a * b) f s.
Proof.
  assert (Add : forall m n s, times (m + n) f s = do s1 <- times m f s; times n f s1).
  { induction m as [|m IH]; intros n s; [reflexivity|]. cbn [times Nat.add].
    destruct (f s); cbn [bind]; auto. }
  induction a as [|a IH]; intros s; [reflexivity|]. cbn [times Nat.mul]. rewrite Add.
  destruct (times b f s); cbn [bind]; auto.
Qed.

(** The name wanted by the [j]-th unit. *)
Definition unit_name (ng : nat) (first : N) (i : nat) : option name :=
  if (Datatypes.S i mod ng =? 0)%nat then Some (NNum (first + N.of_nat (Datatypes.S i / ng - 1))) else None.

Lemma init_names_eq n k : forall ev : eval, (ev_names ev + N.of_nat n < usize_mod)%N ->
  init_names n k ev = (map (unit_name (Datatypes.S k) (ev_names ev)) (seq 0 (n * Datatypes.S k)),
    EvalRaz (ev_tree ev) (ev_names ev + N.of_nat n) (ev_coord ev) (ev_counter ev) (ev_datagauge ev) (ev_namegauge ev)).
Proof.
  induction n as [|n IH]; intros ev H.
  - simpl. rewrite N.add_0_r. now destruct ev.
  - cbn [init_names ev_next_name].
    assert (Ad : usize_add (ev_names ev) 1 = (ev_names ev + 1)%N) by (unfold usize_add; apply N.mod_small; lia).
    rewrite Ad. rewrite IH by (cbn [ev_names]; lia). cbn [ev_names ev_tree ev_coord ev_counter ev_datagauge ev_namegauge].
    f_equal; [|f_equal; lia].
    replace (Datatypes.S n * Datatypes.S k) with (k + (1 + n * Datatypes.S k)) by lia.
    rewrite seq_app, map_app, seq_app, map_app. cbn [seq map app Nat.add]. f_equal; [|f_equal].
    + assert (X : forall m s, s + m <= k -> map (unit_name (Datatypes.S k) (ev_names ev)) (seq s m) = repeat None m).
      { induction m as [|m IHm]; intros s Hs; [reflexivity|]. cbn [seq map repeat]. rewrite IHm by lia. f_equal.
        unfold unit_name. rewrite Nat.mod_small by lia. reflexivity. }
      symmetry. apply X. lia.
    + unfold unit_name. rewrite Nat.mod_same, Nat.div_same by lia. cbn [Nat.eqb]. do 2 f_equal. simpl. lia.
    + rewrite <- (Nat.add_0_r (k + 1)).
      assert (Sh : forall m s, seq (k + 1 + s) m = map (fun i => k + 1 + i) (seq s m)).
      { induction m as [|m IHm]; intros s; [reflexivity|]. cbn [seq map]. rewrite <- IHm. do 2 f_equal. lia. }
      rewrite Sh, map_map. apply map_ext. intros i. unfold unit_name.
      replace (Datatypes.S (k + 1 + i)) with (Datatypes.S i + 1 * Datatypes.S k) by lia.
      rewrite Nat.mod_add, Nat.div_add by lia.
      destruct (Nat.eqb_spec (Datatypes.S i mod Datatypes.S k) 0) as [Z|]; [|reflexivity].
      assert (1 <= Datatypes.S i / Datatypes.S k).
      { apply Nat.div_exact in Z; [|lia]. destruct (Datatypes.S i / Datatypes.S k); lia. }
      do 2 f_equal. lia.
Qed.

Lemma marked_app us ns lev nm xs : forall k ys,
  @marked E us ns lev nm k (xs ++ ys) = marked us ns lev nm k xs ++ marked us ns lev nm (k + N.of_nat (length xs)) ys.
Proof.
  induction xs as [|x xs IH]; intros k ys.
  - simpl. now rewrite N.add_0_r.
  - rewrite <- app_comm_cons, !marked_cons, IH. simpl length. rewrite <- app_comm_cons, <- app_assoc. do 4 f_equal. lia.
Qed.
Lemma marked_plain us ns lev nm xs : forall k, (1 <= us)%N ->
  (forall i, i < length xs -> ((k + 1 + N.of_nat i) mod us)%N <> 0%N) ->
  @marked E us ns lev nm k xs = map Elt xs.
Proof.
  induction xs as [|x xs IH]; intros k U H; [reflexivity|]. rewrite marked_cons, IH; auto.
  - pose proof (H 0 ltac:(simpl; lia)) as H0. rewrite N.add_0_r in H0. apply N.eqb_neq in H0. rewrite H0. reflexivity.
  - intros i Hi. specialize (H (Datatypes.S i) ltac:(simpl; lia)). intros X. apply H. rewrite <- X. f_equal. lia.
Qed.
Lemma mod_between us j i : (0 < i)%N -> (i < us)%N -> ((j * us + i) mod us <> 0)%N.
Proof. intros A B. rewrite N.add_comm, N.mod_add by lia. rewrite N.mod_small; lia. Qed.

Lemma push_times free n : forall (z : raz E M) (s : sraz E) data levs nms, at_work free z s -> n <= length data ->
  exists z', times n (@init_push E M) (z, data, levs, nms) = Ok (z', skipn n data, levs, nms) /\
    at_work free z' (SRaz (rev (map Elt (firstn n data)) ++ s_left s) (s_right s) (s_lnew s) (s_rnew s)).
Proof.
  induction n as [|n IH]; intros z s data levs nms W H.
  - exists z. split; [reflexivity|]. simpl. now destruct s.
  - destruct data as [|e data]; [simpl in H; lia|]. cbn [times init_push next_or bind].
    destruct (IH _ _ data levs nms (work_push free z s e W) ltac:(simpl in H; lia)) as (z' & T & W').
    exists z'. rewrite T. split; [reflexivity|]. cbn [s_left s_right s_lnew s_rnew] in W'.
    cbn [firstn map rev]. rewrite <- app_assoc. exact W'.
Qed.

Lemma skipn_plus {A} (l : list A) : forall a b, skipn a (skipn b l) = skipn (a + b) l.
Proof.
  induction l as [|x l IH]; intros a b; [now rewrite !skipn_nil|].
  destruct b as [|b]; [now rewrite Nat.add_0_r|]. rewrite <- plus_n_Sm. apply IH.
Qed.

Section Init.
Variables (us ns : N) (data : list E) (lv : nat -> level) (L K : nat).
Hypothesis (U : (1 <= us)%N) (Ns : (1 <= ns)%N) (Lv : forall i, (1 <= lv i)%N).
Let u := N.to_nat us.
Let n := N.to_nat ns.
Let unit_atoms := @batch_atoms E us ns lv 0 0.

Definition unit_state (z : raz E M) (j : nat) : @init_state E M :=
  (z, skipn (j * u) data, map lv (seq j (L - j)), map (unit_name n 0) (seq j (K - j))).
Definition unit_sraz (j : nat) : sraz E := SRaz (rev (unit_atoms (firstn (j * u) data))) [] j 0.

Lemma unit_name_point j : point_name (unit_name n 0 j) =
  (if (N.of_nat (Datatypes.S j * u) mod (ns * us) =? 0)%N
   then point_name (Some (NNum (0 + (N.of_nat (Datatypes.S j * u) / (ns * us) - 0 / (ns * us) - 1))%N)) else None).
Proof.
  unfold unit_name. rewrite Nat2N.inj_mul. unfold u. rewrite N2Nat.id.
  rewrite N.mul_mod_distr_r by lia. rewrite N.div_mul_cancel_r by lia.
  assert (Mm : N.of_nat (Datatypes.S j mod n) = (N.of_nat (Datatypes.S j) mod ns)%N).
  { rewrite Nat2N.inj_mod. unfold n. now rewrite N2Nat.id. }
  assert (Dd : N.of_nat (Datatypes.S j / n) = (N.of_nat (Datatypes.S j) / ns)%N).
  { rewrite Nat2N.inj_div. unfold n. now rewrite N2Nat.id. }
  rewrite <- Mm, <- Dd. rewrite (N.div_small 0) by nia.
  destruct (Nat.eqb_spec (Datatypes.S j mod n) 0) as [Z|NZ].
  - rewrite Z. simpl N.of_nat. destruct (N.eqb_spec (0 * us) 0) as [_|X]; [|lia].
    do 3 f_equal. lia.
  - destruct (N.eqb_spec (N.of_nat (Datatypes.S j mod n) * us) 0) as [X|_]; [nia|reflexivity].
Qed.

Lemma unit_atoms_succ j : Datatypes.S j * u <= length data ->
  unit_atoms (firstn (Datatypes.S j * u) data) =
  unit_atoms (firstn (j * u) data) ++ map Elt (firstn u (skipn (j * u) data)) ++ [Mark (lv j) (point_name (unit_name n 0 j))].
Proof.
  intros H. unfold unit_atoms, batch_atoms.
  replace (firstn (Datatypes.S j * u) data) with (firstn (j * u) data ++ firstn u (skipn (j * u) data)).
  2:{ rewrite <- (firstn_skipn (j * u) (firstn (Datatypes.S j * u) data)). f_equal.
      - rewrite firstn_firstn. f_equal. simpl. lia.
      - rewrite skipn_firstn_comm. f_equal. simpl. lia. }
  rewrite marked_app. f_equal. rewrite firstn_length_le by (simpl in H; lia).
  set (xs := firstn u (skipn (j * u) data)).
  assert (Lx : length xs = u) by (unfold xs; rewrite firstn_length_le; [reflexivity|rewrite skipn_length; simpl in H; lia]).
  assert (Uu : 1 <= u) by (unfold u; lia).
  assert (Nx : xs <> []) by (intros X; rewrite X in Lx; simpl in Lx; lia).
  destruct (exists_last Nx) as (xs' & x & X). rewrite X in *. rewrite app_length in Lx. simpl in Lx.
  rewrite marked_app, map_app, <- app_assoc. f_equal.
  - apply marked_plain; auto. intros i Hi.
    replace (0 + N.of_nat (j * u) + 1 + N.of_nat i)%N with (N.of_nat j * us + (N.of_nat i + 1))%N by lia.
    apply mod_between; lia.
  - assert (Kk : (0 + N.of_nat (j * u) + N.of_nat (length xs') + 1 = N.of_nat (Datatypes.S j * u))%N) by (simpl; lia).
    rewrite marked_cons, Kk, <- unit_name_point. cbn [marked map app]. rewrite app_nil_r.
    assert (X1 : (N.of_nat (Datatypes.S j * u) = N.of_nat (Datatypes.S j) * us)%N) by (unfold u; lia).
    rewrite X1, N.mod_mul, N.div_mul by lia. cbn [N.eqb]. rewrite (N.div_small 0) by lia. do 3 f_equal.
    f_equal. lia.
Qed.

Lemma unit_step free z j : at_work free z (unit_sraz j) -> Datatypes.S j * u <= length data -> j < L -> j < K ->
  exists z', (do st <- times u init_push (unit_state z j); init_archive st) = Ok (unit_state z' (Datatypes.S j)) /\
    at_work free z' (unit_sraz (Datatypes.S j)).
Proof.
  intros W H HL HK. unfold unit_state. 
  destruct (push_times free u z _ (skipn (j * u) data) (map lv (seq j (L - j))) (map (unit_name n 0) (seq j (K - j))) W
    ltac:(rewrite skipn_length; simpl in H; lia)) as (z1 & T & W1). rewrite T. cbn [bind].
  destruct (L - j) as [|l] eqn:EL; [lia|]. destruct (K - j) as [|k] eqn:EK; [lia|].
  cbn [seq map init_archive next_or bind]. eexists. split.
  - replace l with (L - Datatypes.S j) by lia. replace k with (K - Datatypes.S j) by lia.
    rewrite skipn_plus. replace (u + j * u) with (Datatypes.S j * u) by (simpl; lia). reflexivity.
  - cbn [s_left s_right s_lnew s_rnew unit_sraz] in W1.
    assert (Uu : 1 <= u) by (unfold u; lia).
    set (xs := firstn u (skipn (j * u) data)) in *.
    assert (Lx : length xs = u) by (unfold xs; rewrite firstn_length_le; [reflexivity|rewrite skipn_length; simpl in H; lia]).
    assert (Nx : xs <> []) by (intros X; rewrite X in Lx; simpl in Lx; lia).
    destruct (exists_last Nx) as (xs' & x & X).
    assert (Hd : rev (map (@Elt E level) xs) = Elt x :: rev (map Elt xs')) by (rewrite X, map_app, rev_app_distr; reflexivity).
    rewrite Hd in W1. cbn [app] in W1.
    pose proof (work_archive free z1 _ x _ (lv j) (unit_name n 0 j) (Lv j) W1 eq_refl) as W2.
    cbn [s_left s_right s_lnew s_rnew] in W2. unfold unit_sraz. rewrite unit_atoms_succ by assumption. fold xs.
    rewrite !rev_app_distr, Hd. exact W2.
Qed.

Lemma unit_step_none free z j : at_work free z (unit_sraz j) -> Datatypes.S j * u <= length data -> j < L -> K <= j ->
  unit_name n 0 j = None ->
  exists z', (do st <- times u init_push (unit_state z j); init_archive_none st) = Ok (unit_state z' (Datatypes.S j)) /\
    at_work free z' (unit_sraz (Datatypes.S j)).
Proof.
  intros W H HL HK Hn. unfold unit_state. 
  destruct (push_times free u z _ (skipn (j * u) data) (map lv (seq j (L - j))) (map (unit_name n 0) (seq j (K - j))) W
    ltac:(rewrite skipn_length; simpl in H; lia)) as (z1 & T & W1). rewrite T. cbn [bind].
  destruct (L - j) as [|l] eqn:EL; [lia|]. replace (K - j) with 0 by lia. replace (K - Datatypes.S j) with 0 by lia.
  cbn [seq map init_archive_none next_or bind]. eexists. split.
  - replace l with (L - Datatypes.S j) by lia.
    rewrite skipn_plus. replace (u + j * u) with (Datatypes.S j * u) by (simpl; lia). reflexivity.
  - cbn [s_left s_right s_lnew s_rnew unit_sraz] in W1.
    assert (Uu : 1 <= u) by (unfold u; lia).
    set (xs := firstn u (skipn (j * u) data)) in *.
    assert (Lx : length xs = u) by (unfold xs; rewrite firstn_length_le; [reflexivity|rewrite skipn_length; simpl in H; lia]).
    assert (Nx : xs <> []) by (intros X; rewrite X in Lx; simpl in Lx; lia).
    destruct (exists_last Nx) as (xs' & x & X).
    assert (Hd : rev (map (@Elt E level) xs) = Elt x :: rev (map Elt xs')) by (rewrite X, map_app, rev_app_distr; reflexivity).
    rewrite Hd in W1. cbn [app] in W1.
    pose proof (work_archive free z1 _ x _ (lv j) None (Lv j) W1 eq_refl) as W2.
    cbn [s_left s_right s_lnew s_rnew] in W2. unfold unit_sraz. rewrite unit_atoms_succ by assumption. fold xs.
    rewrite Hn, !rev_app_distr, Hd. exact W2.
Qed.

Lemma units_named free m : forall z j, at_work free z (unit_sraz j) -> (j + m) * u <= length data -> j + m <= L -> j + m <= K ->
  exists z', times m (fun st => do st <- times u init_push st; init_archive st) (unit_state z j) = Ok (unit_state z' (j + m)) /\
    at_work free z' (unit_sraz (j + m)).
Proof.
  induction m as [|m IH]; intros z j W H HL HK.
  - rewrite Nat.add_0_r. exists z. split; [reflexivity|exact W].
  - cbn [times]. destruct (unit_step free z j W ltac:(nia) ltac:(lia) ltac:(lia)) as (z1 & T & W1). rewrite T. cbn [bind].
    destruct (IH z1 (Datatypes.S j) W1 ltac:(simpl in *; lia) ltac:(lia) ltac:(lia)) as (z2 & T2 & W2).
    rewrite <- plus_n_Sm. exists z2. split; assumption.
Qed.
Lemma units_none free m : forall z j, at_work free z (unit_sraz j) -> (j + m) * u <= length data -> j + m <= L -> K <= j ->
  (forall i, i < m -> unit_name n 0 (j + i) = None) ->
  exists z', times m (fun st => do st <- times u init_push st; init_archive_none st) (unit_state z j) = Ok (unit_state z' (j + m)) /\
    at_work free z' (unit_sraz (j + m)).
Proof.
  induction m as [|m IH]; intros z j W H HL HK Hn.
  - rewrite Nat.add_0_r. exists z. split; [reflexivity|exact W].
  - cbn [times]. destruct (unit_step_none free z j W ltac:(nia) ltac:(lia) ltac:(lia)) as (z1 & T & W1).
    { rewrite <- (Nat.add_0_r j). apply Hn. lia. }
    rewrite T. cbn [bind].
    destruct (IH z1 (Datatypes.S j) W1 ltac:(simpl in *; lia) ltac:(lia) ltac:(lia)) as (z2 & T2 & W2).
    { intros i Hi. rewrite Nat.add_succ_comm. apply Hn. lia. }
    rewrite <- plus_n_Sm. exists z2. split; assumption.
Qed.
End Init.

Lemma strip_unfocus (l : atoms) k : sz_unfocus (SRaz (rev l) [] k 0) = strip l.
Proof.
  unfold strip, sz_unfocus. cbn [s_left s_right s_lnew s_rnew].
  destruct (rev l) as [|[e|m n] r] eqn:R.
  - now rewrite <- (rev_involutive l), R.
  - rewrite app_nil_r, <- R. apply rev_involutive.
  - reflexivity.
Qed.

Theorem inc_init_spec free (size dg ng : N) (coord : G) (rng : S) :
  (1 <= dg)%N -> (1 <= ng)%N -> (ng * dg < usize_mod)%N -> (size < usize_mod)%N ->
  exists t : raz_tree E M, ev_inc_init size dg ng coord rng = Ok (
      EvalRaz (Some t) (size / (ng * dg))%N (state_after gen_elt (N.to_nat size) coord) 0 dg ng,
      state_after next_word (N.to_nat (size / dg)) rng) /\
    tree_reached free t /\
    contents t = strip (batch_atoms dg ng (nth_level rng) 0 0 (drawn gen_elt (N.to_nat size) coord)).
Proof.
  intros D Ng Ov Hs. unfold ev_inc_init.
  assert (Mu : usize_mul ng dg = (ng * dg)%N) by (unfold usize_mul; apply N.mod_small; lia). rewrite Mu.
  unfold usize_div. destruct (N.eqb_spec dg 0) as [|_]; [lia|]. destruct (N.eqb_spec (ng * dg) 0) as [|_]; [nia|].
  cbn [bind].
  set (nn := (size / (ng * dg))%N).
  assert (Hnn : (nn * (ng * dg) <= size)%N) by (rewrite N.mul_comm; apply N.mul_div_le; nia).
  assert (Hnn2 : (size < (nn + 1) * (ng * dg))%N).
  { rewrite N.mul_comm, N.add_1_r. apply N.mul_succ_div_gt. nia. }
  assert (M1 : usize_mul nn ng = (nn * ng)%N).
  { unfold usize_mul. apply N.mod_small. nia. }
  assert (M2 : usize_mul (nn * ng) dg = (nn * ng * dg)%N).
  { unfold usize_mul. apply N.mod_small. nia. }
  rewrite M1, M2.
  assert (Sb : forall a b, (b <= a)%N -> (a < usize_mod)%N -> usize_sub a b = (a - b)%N).
  { intros a b A B. unfold usize_sub. replace (a + usize_mod - b)%N with ((a - b) + 1 * usize_mod)%N by lia.
    rewrite N.mod_add by discriminate. apply N.mod_small. lia. }
  rewrite (Sb size) by nia. set (nonames := (size - nn * ng * dg)%N).
  set (units := (nonames / dg)%N).
  assert (Hun : (units * dg <= nonames)%N) by (rewrite N.mul_comm; apply N.mul_div_le; lia).
  assert (Hun2 : (nonames < (units + 1) * dg)%N).
  { rewrite N.mul_comm, N.add_1_r. apply N.mul_succ_div_gt. lia. }
  assert (M3 : usize_mul units dg = (units * dg)%N) by (unfold usize_mul; apply N.mod_small; lia).
  rewrite M3, (Sb nonames) by lia. set (nounits := (nonames - units * dg)%N).
  rewrite (Sb ng 1%N) by (try lia; nia).
  set (lev := (size / dg)%N).
  assert (Hlev : lev = (nn * ng + units)%N).
  { unfold lev. symmetry. apply (N.div_unique size dg _ nounits); unfold nounits; [lia|]. nia. }
  assert (Hul : (units < ng)%N) by nia.
  rewrite draw_levels.
  rewrite init_names_eq by (cbn [ev_new ev_names]; rewrite N2Nat.id; nia).
  cbn [ev_new ev_names ev_tree ev_coord ev_counter ev_datagauge ev_namegauge ev_set_coord].
  rewrite draw_eq. set (data := drawn gen_elt (N.to_nat size) coord).
  assert (Ld : length data = N.to_nat size) by apply drawn_length.
  rewrite times_mul.
  replace (Datatypes.S (N.to_nat (ng - 1))) with (N.to_nat ng) by lia.
  set (K := (N.to_nat nn * N.to_nat ng)).
  assert (HK : K = N.to_nat (nn * ng)) by (unfold K; lia).
  set (lv := nth_level rng).
  assert (Lv : forall i, (1 <= lv i)%N) by (intros; apply gen_level_pos).
  assert (W0 : at_work free raz_new (unit_sraz dg ng data lv 0)).
  { split; [apply RR_new|]. exact new_session. }
  destruct (units_named dg ng data lv (N.to_nat lev) K D Ng Lv free K raz_new 0 W0) as (z1 & T1 & W1).
  { rewrite Ld. nia. } { lia. } { lia. }
  change (unit_state dg ng data lv (N.to_nat lev) K raz_new 0) with
    (@raz_new E M, data, map lv (seq 0 (N.to_nat lev - 0)), map (unit_name (N.to_nat ng) 0) (seq 0 (K - 0))) in T1.
  rewrite !Nat.sub_0_r in T1. rewrite T1. cbn [bind Nat.add] in *.
  destruct (units_none dg ng data lv (N.to_nat lev) K D Ng Lv free (N.to_nat units) z1 K W1) as (z2 & T2 & W2).
  { rewrite Ld. nia. } { lia. } { lia. }
  { intros i Hi. unfold unit_name. replace (Datatypes.S (K + i)) with (Datatypes.S i + N.to_nat nn * N.to_nat ng) by (unfold K; lia).
    rewrite Nat.mod_add, Nat.mod_small by lia. reflexivity. }
  rewrite T2. cbn [bind]. unfold unit_state.
  destruct (push_times free (N.to_nat nounits) z2 _ (skipn ((K + N.to_nat units) * N.to_nat dg) data)
    (map lv (seq (K + N.to_nat units) (N.to_nat lev - (K + N.to_nat units))))
    (map (unit_name (N.to_nat ng) 0) (seq (K + N.to_nat units) (K - (K + N.to_nat units)))) W2) as (z3 & T3 & W3).
  { rewrite skipn_length, Ld. nia. }
  rewrite T3. cbn [bind]. destruct W3 as [R Se]. destruct (Se [] (Forall_nil _)) as (z4 & t & Z & Un & C).
  cbn [zrun] in Z. injection Z as <-. rewrite Un. cbn [bind ev_set_tree ev_names ev_coord ev_counter ev_datagauge ev_namegauge].
  exists t. split; [|split].
  - rewrite N2Nat.id, N.add_0_l. reflexivity.
  - exact (TR_unfocus free E M RM z3 t R Un).
  - rewrite C. cbn [sz_run snd unit_sraz s_left s_right s_lnew s_rnew]. rewrite <- rev_app_distr, strip_unfocus. f_equal.
    set (J := (K + N.to_nat units) * N.to_nat dg).
    assert (HJ : N.of_nat J = (lev * dg)%N) by (unfold J; nia).
    assert (F : firstn (N.to_nat nounits) (skipn J data) = skipn J data).
    { apply firstn_all2. rewrite skipn_length, Ld. nia. }
    rewrite F. rewrite <- (firstn_skipn J data) at 3. unfold batch_atoms. rewrite marked_app. f_equal.
    symmetry. apply marked_plain; [assumption|]. intros i Hi. rewrite skipn_length, Ld in Hi.
    rewrite firstn_length_le by (rewrite Ld; nia).
    replace (0 + N.of_nat J + 1 + N.of_nat i)%N with (lev * dg + (N.of_nat i + 1))%N by lia.
    apply mod_between; [lia|]. assert (N.of_nat i < size - N.of_nat J)%N by lia. nia.
Qed.
End HarnessProofs.
