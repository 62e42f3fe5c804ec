(** * A family of trees to apply the averages to: an element, an archive point, an element,
    ..., an element, with given levels. *)

From Verif Require Import Base BaseFacts Spec SpecRaz StackModel AStackModel LevelTreeModel TreeCursorModel
  RazMetaModel RazModel RazView RazScripts RazSession RazReach RazFacts MemoSpec LevelGenModel LevelGenProofs
  ChanceSpec.

Fixpoint chain_ops {E} (x : nat -> E) (i : nat) (ls : list level) : list (zop E) :=
  match ls with
  | [] => [OPushL (x i)]
  | m :: r => OPushL (x i) :: OArchL m (Some (NNum (N.of_nat i))) :: chain_ops x (S i) r
  end.
Definition chain_name (i : nat) : option name := Some (NPair (NNum (N.of_nat i)) (NStr "tree")).
Fixpoint chain {E} (x : nat -> E) (i : nat) (ls : list level) : list (atom E level) :=
  match ls with
  | [] => [Elt (x i)]
  | m :: r => Elt (x i) :: Mark m (chain_name i) :: chain x (S i) r
  end.

Section Chain.
Context {E M : Type} {RM : RazMeta E M} (x : nat -> E).

Lemma chain_run ls : forall i (L : list (atom E level)) k,
  snd (sz_run (SRaz L [] k 0) (chain_ops x i ls)) = SRaz (rev (chain x i ls) ++ L) [] (k + length ls) 0.
Proof.
  induction ls as [|m ls IH]; intros i L k.
  - cbn. now rewrite Nat.add_0_r.
  - cbn [chain_ops sz_run sz_step sz_push_left sp_push s_left s_right s_lnew s_rnew sz_archive_left sp_archive chain rev].
    specialize (IH (S i) (Mark m (chain_name i) :: Elt (x i) :: L) (S k)).
    change (point_name (Some (NNum (N.of_nat i)))) with (chain_name i).
    destruct (sz_run _ (chain_ops x (S i) ls)) as [os z]. cbn [snd] in IH |- *. rewrite IH.
    rewrite <- !app_assoc. cbn [app]. f_equal. cbn [length]. lia.
Qed.
Lemma chain_ok ls : Forall (fun m => 1 <= m)%N ls -> forall i, Forall zop_ok (chain_ops x i ls).
Proof. induction 1 as [|m ls H F IH]; intros i; cbn [chain_ops]; repeat constructor; auto. Qed.
Lemma chain_last ls : forall i, exists e r, rev (chain x i ls) = Elt e :: r.
Proof.
  induction ls as [|m ls IH]; intros i; cbn [chain rev]; [eexists _, _; reflexivity|].
  destruct (IH (S i)) as (e & r & ->). cbn [app]. eexists _, _. reflexivity.
Qed.
Lemma chain_tree ls i : Forall (fun m => 1 <= m)%N ls ->
  exists t : raz_tree E M, tree_reached false t /\ contents t = chain x i ls.
Proof.
  intros F. destruct (new_session (chain_ops x i ls) (chain_ok ls F i)) as (z & t & R & U & C).
  exists t. split.
  - eapply TR_unfocus; [|exact U]. eapply zrun_reached; [exact (chain_ok ls F i)|apply RR_new|exact R].
  - rewrite C. unfold sz_new. rewrite chain_run, app_nil_r. unfold sz_unfocus. cbn [s_left s_right].
    destruct (chain_last ls i) as (e & r & X). rewrite X, <- X, rev_involutive. apply app_nil_r.
Qed.
Lemma chain_levels ls : forall i, map fst (marks (chain x i ls)) = ls.
Proof. induction ls as [|m ls IH]; intros i; cbn [chain marks map fst]; [reflexivity|]. now rewrite IH. Qed.
Lemma chain_elts ls : forall i, length (elts (chain x i ls)) = S (length ls).
Proof. induction ls as [|m ls IH]; intros i; cbn [chain elts length]; [reflexivity|]. now rewrite IH. Qed.
Lemma chain_names ls : forall i, map snd (marks (chain x i ls)) = map chain_name (seq i (length ls)).
Proof. induction ls as [|m ls IH]; intros i; cbn [chain marks map snd length seq]; [reflexivity|]. now rewrite IH. Qed.
(** Between the element with number [a] and the archive point after it. *)
Lemma chain_split a : forall i ls, a <= length ls ->
  exists p q, split_count (S a) (chain x i ls) = (p, q) /\ p ++ q = chain x i ls /\
    map fst (marks p) = firstn a ls /\ map fst (marks q) = skipn a ls.
Proof.
  induction a as [|a IH]; intros i ls H.
  - destruct ls as [|m ls]; cbn [chain split_count].
    + eexists _, _. repeat split.
    + eexists _, _. split; [reflexivity|]. split; [reflexivity|]. split; [reflexivity|].
      cbn [marks map fst skipn]. now rewrite chain_levels.
  - destruct ls as [|m ls]; [cbn in H; lia|]. cbn [chain split_count].
    destruct (IH (S i) ls) as (p & q & X & Y & A & B); [cbn in H; lia|]. rewrite X.
    eexists _, _. split; [reflexivity|]. cbn [app marks map fst firstn skipn]. now rewrite Y, A, B.
Qed.
End Chain.

Lemma chain_two {E} (x y : nat -> E) (a : nat) : (forall i, i <> a -> x i = y i) ->
  forall ls i, exists pre post, i <= a -> a <= i + length ls ->
  chain x i ls = pre ++ [Elt (x a)] ++ post /\ chain y i ls = pre ++ [Elt (y a)] ++ post /\
  map fst (marks pre) = firstn (a - i) ls /\ map fst (marks post) = skipn (a - i) ls.
Proof.
  intros H. induction ls as [|m ls IH]; intros i.
  - exists [], []. intros A B. cbn [length] in B. assert (i = a) as -> by lia. rewrite Nat.sub_diag. repeat split.
  - destruct (Nat.eq_dec i a) as [->|Ne].
    + exists [], (Mark m (chain_name a) :: chain x (S a) ls). intros _ _. rewrite Nat.sub_diag. cbn [chain app].
      assert (S : forall j, a < j -> chain y j ls = chain x j ls).
      { clear IH. induction ls as [|k ls IHl]; intros j Hj; cbn [chain]; rewrite (H j) by lia; [reflexivity|]. now rewrite IHl by lia. }
      rewrite S by lia. repeat split. cbn [marks map fst skipn]. now rewrite chain_levels.
    + destruct (IH (S i)) as (pre & post & X). exists (Elt (x i) :: Mark m (chain_name i) :: pre), post. intros A B.
      destruct X as (X & Y & U & V); [lia|cbn [length] in B; lia|]. replace (a - i) with (S (a - S i)) by lia.
      cbn [chain app marks map fst firstn skipn]. rewrite <- (H i) by exact Ne. now rewrite X, Y, U, V.
Qed.

Lemma drawn_pos n ws : draws n ws -> Forall (fun m => 1 <= m)%N (map gen_branch_level ws).
Proof. intros (_ & F). apply Forall_map. eapply Forall_impl; [|exact F]. intros w Hw. apply gen_level_range, Hw. Qed.
