(** * The trees and stacks of [ChanceCases] computed, and their reruns. *)

From Verif Require Import Base BaseFacts Spec SpecRaz StackModel AStackModel StackScripts StackProofs LevelTreeModel TreeSpec TreeCursorModel
  RazMetaModel RazModel RazView RazScripts RazSession RazReach RazFacts RazIndex RazExamples LevelGenModel LevelGenProofs
  MemoModel MemoSpec MemoHistory MemoProofs MemoFromModel MemoFromSpec MemoFrom PathSpec RazPath ChanceSpec Chance ChanceCases PropRazOps.

Definition drawn (x : nat -> nat) (ws : list N) : raz_tree nat count :=
  raz_to_tree (run_raz (chain_ops x 0 (map gen_branch_level ws))).
Lemma drawn_ok x n ws : draws n ws ->
  tree_reached false (drawn x ws) /\ contents (drawn x ws) = chain x 0 (map gen_branch_level ws).
Proof.
  intros D. pose proof (drawn_pos n ws D) as F. set (ls := map gen_branch_level ws) in *.
  destruct (new_session (chain_ops x 0 ls) (chain_ok x ls F 0) : exists (z : raz nat count) t, _) as (z & t & R & U & C).
  assert (X : drawn x ws = t) by (unfold drawn, run_raz; fold ls; rewrite R; unfold raz_to_tree; now rewrite U).
  rewrite X. split.
  - eapply TR_unfocus; [|exact U]. eapply zrun_reached; [exact (chain_ok x ls F 0)|apply RR_new|exact R].
  - rewrite C. unfold sz_new. rewrite chain_run, app_nil_r. unfold sz_unfocus. cbn [s_left s_right].
    destruct (chain_last x ls 0) as (e & r & Y). rewrite Y, <- Y, rev_involutive. apply app_nil_r.
Qed.

(** The path after focusing behind the element with number [a]. *)
Definition path_at (x : nat -> nat) (a : nat) (ws : list N) : nat :=
  match rt_focus (drawn x ws) (N.of_nat (S a)) with
  | Ok (Some z) => left_path z + right_path z
  | _ => 0
  end.
Lemma path_at_ok x a b ws : (N.of_nat (a + b) < 2 ^ 63)%N -> draws (a + b) ws ->
  exists (t : raz_tree nat count) z,
    tree_reached false t /\ (n_elts (contents t) < usize_mod)%N /\ S a <= length (elts (contents t)) /\
    levels_from (fst (split_count (S a) (contents t))) (firstn a ws) /\
    levels_from (snd (split_count (S a) (contents t))) (skipn a ws) /\
    rt_focus t (N.of_nat (S a)) = Ok (Some z) /\ left_path z + right_path z = path_at x a ws.
Proof.
  intros Hn D. destruct (drawn_ok x (a + b) ws D) as (R & C). pose proof (proj1 D) as Ln.
  assert (El : length (elts (contents (drawn x ws))) = S (a + b)) by (rewrite C, chain_elts, map_length, Ln; reflexivity).
  assert (Lt : (n_elts (contents (drawn x ws)) < usize_mod)%N).
  { unfold n_elts. rewrite El. change usize_mod with (2 * 2 ^ 63)%N. revert Hn. generalize (2 ^ 63)%N. lia. }
  assert (Hi : S a <= length (elts (contents (drawn x ws)))) by lia.
  destruct (focus_count_paths (drawn x ws) (S a) R Lt Hi) as (z & F & _).
  exists (drawn x ws), z. split; [exact R|]. split; [exact Lt|]. split; [exact Hi|].
  destruct (chain_split x a 0 (map gen_branch_level ws)) as (p & q & X & _ & Lp & Lq); [rewrite map_length; lia|].
  unfold levels_from. rewrite C, X. cbn [fst snd]. rewrite Lp, Lq, firstn_map, skipn_map. split; [reflexivity|]. split; [reflexivity|].
  split; [exact F|]. unfold path_at. now rewrite F.
Qed.

(** Two runs: how many nodes the second one enters. *)
Definition second {X K R Y L} (run : X -> mtab K R -> res (Y * mtab K R * list L)) (s s' : X) : nat :=
  match runs run [s; s'] no_memos with
  | Ok (_, _, [_; lg]) => length lg
  | _ => 0
  end.
Lemma second_ok {X K R Y L} (run : X -> mtab K R -> res (Y * mtab K R * list L)) (plain : X -> res Y) (s s' : X) y y' :
  answer (runs run [s; s'] no_memos) = all_ok (map plain [s; s']) -> plain s = Ok y -> plain s' = Ok y' ->
  exists rs T lgs x T' lg, runs run [s] no_memos = Ok (rs, T, lgs) /\ run s' T = Ok (x, T', lg) /\ length lg = second run s s'.
Proof.
  unfold second. cbn [runs map all_ok]. intros A H1 H2. rewrite H1, H2 in A. cbn [bind] in A.
  destruct (run s no_memos) as [[[u T] lg]| |]; cbn [bind answer] in A |- *; try discriminate.
  destruct (run s' T) as [[[u' T'] lg']| |] eqn:F; cbn [bind answer] in A |- *; try discriminate.
  do 6 eexists. split; [reflexivity|]. split; [exact F|reflexivity].
Qed.

Lemma chain_orderly x y ls : orderly_points [chain (E := nat) y 0 ls; chain x 0 ls].
Proof.
  assert (Nm : forall z p, In p (marks (chain (E := nat) z 0 ls)) -> snd p <> None).
  { intros z p Ip H. apply (in_map snd) in Ip. rewrite chain_names, in_map_iff in Ip. destruct Ip as (i & E & _). rewrite H in E. discriminate. }
  assert (Nd : forall z, NoDup (map snd (marks (chain (E := nat) z 0 ls)))).
  { intros z. rewrite chain_names. apply FinFun.Injective_map_NoDup; [|apply seq_NoDup].
    intros i j E. unfold chain_name in E. injection E as E. now apply Nat2N.inj. }
  cbn [orderly_points]. split; [|split; [apply Nm|split; [apply Nd|]]].
  - split; [exact I|]. split; [apply Nm|]. split; [apply Nd|]. intros; exact I.
  - intros n H. left. unfold has_point in *. rewrite chain_names in *. exact H.
Qed.

Definition eq_cnt : forall x y : count, {x = y} + {x <> y}.
Proof. intros [a] [b]. destruct (N.eq_dec a b); [left|right]; congruence. Defined.
Definition eq_node := td_eq_dec (E := nat) (M := count) Nat.eq_dec eq_cnt.

Lemma edit_ok a b ws : draws (a + b) ws -> let x := fun i : nat => i in let y := fun i => if i =? a then 100 else i in
  exists t t' older pre mid mid' post,
    t = drawn x ws /\ t' = drawn y ws /\ older = [] /\
    Forall (fun t => tree_reached false t) (t' :: t :: older) /\
    orderly_points (map contents (t' :: t :: older)) /\
    contents t = pre ++ mid ++ post /\ contents t' = pre ++ mid' ++ post /\ length (marks mid') <= 0 /\
    levels_from pre (firstn a ws) /\ levels_from post (skipn a ws).
Proof.
  intros D x y. destruct (drawn_ok x _ ws D) as (R & C). destruct (drawn_ok y _ ws D) as (R' & C'). pose proof (proj1 D) as Ln.
  destruct (chain_two x y a) with (ls := map gen_branch_level ws) (i := 0) as (pre & post & Q).
  { intros i Ne. unfold x, y. apply Nat.eqb_neq in Ne. now rewrite Ne. }
  destruct Q as (A & B & La & Lb); [lia|rewrite map_length; lia|]. rewrite Nat.sub_0_r in La, Lb.
  exists (drawn x ws), (drawn y ws), [], pre, [Elt (x a)], [Elt (y a)], post.
  do 3 (split; [reflexivity|]). split; [apply Forall_cons; [exact R'|apply Forall_cons; [exact R|apply Forall_nil]]|].
  split; [cbn [map]; rewrite C, C'; apply chain_orderly|]. split; [now rewrite C|]. split; [now rewrite C'|]. split; [reflexivity|].
  unfold levels_from. now rewrite La, Lb, firstn_map, skipn_map.
Qed.

(** Stacks. *)
Fixpoint stack_ops (i : nat) (ls : list level) : list (aop nat level) :=
  match ls with
  | [] => [OpPush i]
  | m :: r => stack_ops (S i) r ++ [OpArchive (Some (NNum (N.of_nat i))) m; OpPush i]
  end.
Fixpoint stacked (i : nat) (ls : list level) : list (atom nat level) :=
  match ls with
  | [] => [Elt i]
  | m :: r => Elt i :: Mark m (Some (NNum (N.of_nat i))) :: stacked (S i) r
  end.
Lemma sp_run_then {E M} (a : list (aop E M)) : forall b l, snd (sp_run l (a ++ b)) = snd (sp_run (snd (sp_run l a)) b).
Proof.
  induction a as [|o a IH]; intros b l; [reflexivity|]. cbn [sp_run app]. destruct (sp_step l o) as [ob l1].
  specialize (IH b l1). destruct (sp_run l1 (a ++ b)), (sp_run l1 a). exact IH.
Qed.
Lemma stacked_run ls : forall i, snd (sp_run [] (stack_ops i ls)) = stacked i ls.
Proof.
  induction ls as [|m ls IH]; intros i; cbn [stack_ops stacked]; [reflexivity|]. rewrite sp_run_then, IH. now destruct ls.
Qed.
Lemma stacked_levels ls : forall i, map fst (marks (stacked i ls)) = ls.
Proof. induction ls as [|m ls IH]; intros i; cbn [stacked marks map fst]; [reflexivity|]. now rewrite IH. Qed.
Lemma stacked_names ls : forall i, map snd (marks (stacked i ls)) = map (fun j => Some (NNum (N.of_nat j))) (seq i (length ls)).
Proof. induction ls as [|m ls IH]; intros i; cbn [stacked marks map snd length seq]; [reflexivity|]. now rewrite IH. Qed.

Definition stack_at (ws : list N) : list (aop nat level) := stack_ops 0 (map gen_branch_level ws).
Definition stack_run (ops : list (aop nat level)) : astack nat level :=
  match as_run as_new ops with Ok (_, s) => s | _ => as_new end.
Lemma stack_run_ok ops : exists obs, as_run as_new ops = Ok (obs, stack_run ops).
Proof.
  destruct (as_run_spec ops (as_new : astack nat level) as_new_inv) as (s & R & _ & _). eexists. unfold stack_run. rewrite R. reflexivity.
Qed.

Lemma stack_levels n ws extra : draws n ws -> archives_in (fun m => 1 <= m <= 64)%N (stack_at ws ++ OpPush extra :: nil).
Proof.
  intros (_ & F). apply Forall_app. split; [|repeat constructor]. unfold stack_at. generalize 0.
  induction F as [|w ws Hw F IH]; intros i; cbn [map stack_ops]; [repeat constructor|].
  apply Forall_app. split; [apply IH|]. constructor; [|repeat constructor]. pose proof (gen_level_range w Hw). lia.
Qed.
Definition grown (ws : list N) : list (aop nat level) := stack_at ws ++ [OpPush 100].
Lemma grow_ok n ws : draws n ws -> exists s s' older l l' ls a b c,
  s = stack_run (stack_at ws) /\ s' = stack_run (grown ws) /\ older = [] /\
  Forall2 stack_of (s' :: s :: older) (l' :: l :: ls) /\ orderly_points (l' :: l :: ls) /\
  l = a ++ c /\ l' = b ++ c /\ length (marks b) <= 0 /\ levels_from c ws /\
  (exists t, from_at_tail (M := count) s = Ok t) /\ (exists t, from_at_tail (M := count) s' = Ok t) /\
  (exists t, from_at_head (M := count) s = Ok t) /\ (exists t, from_at_head (M := count) s' = Ok t).
Proof.
  intros D. set (l := stacked 0 (map gen_branch_level ws)).
  assert (St : forall ops, stack_of (stack_run ops) (snd (sp_run [] ops))).
  { intros ops. destruct (stack_run_ok ops) as (obs & R). now exists ops, obs. }
  assert (L1 : snd (sp_run [] (stack_at ws)) = l) by apply stacked_run.
  assert (L2 : snd (sp_run [] (grown ws)) = Elt 100 :: l) by (unfold grown; rewrite sp_run_then, L1; reflexivity).
  pose proof (stack_levels n ws 100 D) as Lv2. pose proof Lv2 as Lv1. apply Forall_app in Lv1. destruct Lv1 as (Lv1 & _).
  assert (U : forall ops : list (aop nat level), archives_in (fun m => 1 <= m <= 64)%N ops ->
    archives_in (fun m => m < u32_max)%N ops /\ archives_in (fun m => 1 <= m <= u32_max)%N ops).
  { intros ops F. split; (eapply Forall_impl; [|exact F]); intros o H; destruct o; auto; cbn in H; unfold u32_max in *; lia. }
  exists (stack_run (stack_at ws)), (stack_run (grown ws)), [], l, (Elt 100 :: l), [], [], [Elt 100], l.
  do 3 (split; [reflexivity|]). split; [|split; [|split; [reflexivity|split; [reflexivity|split; [reflexivity|split]]]]].
  - rewrite <- L2, <- L1. repeat constructor; apply St.
  - assert (Nm : forall p, In p (marks l) -> snd p <> None).
    { intros p Ip H. apply (in_map snd) in Ip. unfold l in Ip. rewrite stacked_names, in_map_iff in Ip. destruct Ip as (i & E & _). rewrite H in E. discriminate. }
    assert (Nd : NoDup (map snd (marks l))).
    { unfold l. rewrite stacked_names. apply FinFun.Injective_map_NoDup; [|apply seq_NoDup].
      intros i j E. injection E as E. now apply Nat2N.inj. }
    cbn [orderly_points marks]. split; [split; [exact I|split; [exact Nm|split; [exact Nd|intros; exact I]]]|].
    split; [exact Nm|]. split; [exact Nd|]. intros m H. left. exact H.
  - unfold levels_from, l. apply stacked_levels.
  - destruct (U _ Lv1) as (A1 & B1). destruct (U (grown ws) Lv2) as (A2 & B2).
    destruct (stack_run_ok (stack_at ws)) as (o1 & R1). destruct (stack_run_ok (grown ws)) as (o2 & R2).
    destruct (C27_at_tail nat count _ _ _ _ R1 A1) as (t1 & F1 & _). destruct (C27_at_tail nat count _ _ _ _ R2 A2) as (t2 & F2 & _).
    destruct (C28_at_head nat count _ _ _ _ R1 B1) as (t3 & F3 & _). destruct (C28_at_head nat count _ _ _ _ R2 B2) as (t4 & F4 & _).
    repeat split; eexists; eassumption.
Qed.

(** To compute the sums from the equations. *)
Lemma solve_right b o x : (2 ^ 64 * (b + o) = x -> b = x / 2 ^ 64 - o)%N.
Proof. intros <-. rewrite N.mul_comm, N.div_mul by discriminate. symmetry. apply N.add_sub. Qed.
Lemma solve_left c o q x : (2 * c + o + q = x -> c = (x - q - o) / 2)%N.
Proof. intros <-. rewrite N.add_sub, N.add_sub, N.mul_comm, N.div_mul by discriminate. reflexivity. Qed.
Lemma leb_true a b : (a <=? b)%N = true -> (a <= b)%N.
Proof. apply N.leb_le. Qed.
Lemma leb_false a b : (a <=? b)%N = false -> ~ (a <= b)%N.
Proof. intros H. now apply N.nle_gt, N.leb_gt. Qed.
Lemma one_right s :
  (2 ^ 64 * (s + over_levels 1 63 (fun k => (2 ^ 64 - 2 ^ (64 - k)) ^ N.of_nat 1)) =
   (2 ^ 64) ^ N.of_nat 1 * (63 * 2 ^ 64 + 2 * N.of_nat 1))%N -> s = (2 ^ 64)%N.
Proof. intros H. apply solve_right in H. subst s. vm_compute. reflexivity. Qed.
Lemma three_right s :
  (2 ^ 64 * (s + over_levels 1 63 (fun k => (2 ^ 64 - 2 ^ (64 - k)) ^ N.of_nat 3)) =
   (2 ^ 64) ^ N.of_nat 3 * (63 * 2 ^ 64 + 2 * N.of_nat 3))%N ->
  (2 * s <= (2 ^ 64) ^ N.of_nat 3 * 5)%N /\ ~ (s <= (2 ^ 64) ^ N.of_nat 3 * 2)%N.
Proof.
  intros H. apply solve_right in H. subst s. split; [apply leb_true|apply leb_false]; vm_compute; reflexivity.
Qed.
Lemma three_left s :
  (2 * s + over_levels 1 63 (fun k => (2 ^ 64 - 2 ^ (65 - k)) ^ N.of_nat 3) + 2 * (2 ^ 64 - 2) ^ N.of_nat 3 =
   65 * (2 ^ 64) ^ N.of_nat 3)%N ->
  (2 * s <= (2 ^ 64) ^ N.of_nat 3 * 4)%N /\ ~ (s <= (2 ^ 64) ^ N.of_nat 3 * 1)%N.
Proof.
  intros H. apply solve_left in H. subst s. split; [apply leb_true|apply leb_false]; vm_compute; reflexivity.
Qed.
Lemma average_double n g b : (2 * sum_draws n g <= (2 ^ 64) ^ N.of_nat n * b)%N -> on_average n (fun ws => 2 * g ws)%N b.
Proof. unfold on_average. now rewrite sum_draws_mul. Qed.
