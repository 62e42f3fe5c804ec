(** * Averages of path lengths and of the work of reruns. *)

From Verif Require Import Base BaseFacts Spec SpecRaz StackModel AStackModel StackScripts LevelTreeModel TreeSpec TreeCursorModel
  RazMetaModel RazModel RazView RazScripts RazSession RazReach RazFacts RazIndex LevelGenModel LevelGenProofs MemoModel MemoSpec EvalHistory MemoHistory MemoRaz
  MemoEval MemoProofs MemoFromModel MemoFromSpec MemoFromUse PathSpec RazPath ChanceSpec Chance ChanceCases.

Lemma right_path_short {E} (t : raz_tree E count) i z :
  tree_reached false t -> (n_elts (contents t) < usize_mod)%N -> i <= length (elts (contents t)) ->
  (forall p, In p (marks (contents t)) -> (fst p <= 64)%N) ->
  rt_focus t (N.of_nat i) = Ok (Some z) -> right_path z <= 64.
Proof.
  intros H Lt Hi Lv F. destruct (focus_count_paths t i H Lt Hi) as (z' & F' & _ & B). rewrite F in F'. injection F' as <-.
  rewrite B. etransitivity; [apply (seen_left_top 64%N); [lia|]|lia].
  apply Forall_forall. intros p Ip. apply Lv. 
  assert (X : fst (split_count i (contents t)) ++ snd (split_count i (contents t)) = contents t).
  { apply split_count_join. }
  rewrite <- X, marks_app. apply in_or_app. now right.
Qed.

Lemma left_path_long n : (N.of_nat (S n) < usize_mod)%N ->
  exists (t : raz_tree nat count) z, tree_reached false t /\ length (marks (contents t)) = n /\
  (forall p, In p (marks (contents t)) -> fst p = 1%N) /\
  rt_focus t (N.of_nat (S n)) = Ok (Some z) /\ left_path z = n.
Proof.
  intros Hn. destruct (chain_tree (fun i => i) (repeat 1%N n) 0 (M := count)) as (t & H & C).
  { apply Forall_forall. intros m Im. apply repeat_spec in Im. subst. apply N.le_refl. }
  assert (L : map fst (marks (contents t)) = repeat 1%N n) by (rewrite C; apply chain_levels).
  assert (El : length (elts (contents t)) = S n) by (rewrite C, chain_elts, repeat_length; reflexivity).
  destruct (focus_count_paths t (S n) H) as (z & F & A & _).
  { unfold n_elts. rewrite El. exact Hn. }
  { lia. }
  destruct (chain_split (fun i => i) n 0 (repeat 1%N n)) as (p & q & X & _ & Lp & _); [rewrite repeat_length; lia|].
  exists t, z. split; [exact H|]. split; [|split; [|split; [exact F|]]].
  - rewrite <- (map_length fst), L. apply repeat_length.
  - intros u Iu. apply (in_map fst) in Iu. rewrite L in Iu. now apply repeat_spec in Iu.
  - rewrite A, C, X. cbn [fst]. rewrite <- (repeat_length 1%N n) in Lp at 1. rewrite firstn_all in Lp.
    clear -Lp. revert n Lp. induction p as [|[e|m j] p IH]; intros n Lp; cbn [marks map fst] in Lp.
    + destruct n; [reflexivity|discriminate].
    + now apply IH.
    + destruct n as [|n]; [discriminate|]. injection Lp as -> Lp. specialize (IH n Lp). cbn [seen_from_right]. rewrite IH.
      assert (F : forallb (fun u : N * option name => (fst u <=? 1)%N) (marks p) = true).
      { apply forallb_forall. intros u Iu. assert (J : In (fst u) (repeat 1%N n)) by (rewrite <- Lp; apply in_map; exact Iu).
        apply repeat_spec in J. now rewrite J. }
      now rewrite F.
Qed.

Lemma average_path {E} a b i (len : list N -> nat) :
  (N.of_nat a < 2 ^ 63)%N -> (N.of_nat b < 2 ^ 63)%N ->
  (forall ws, draws (a + b) ws -> exists (t : raz_tree E count) z,
    tree_reached false t /\ (n_elts (contents t) < usize_mod)%N /\ i <= length (elts (contents t)) /\
    levels_from (fst (split_count i (contents t))) (firstn a ws) /\
    levels_from (snd (split_count i (contents t))) (skipn a ws) /\
    rt_focus t (N.of_nat i) = Ok (Some z) /\ left_path z + right_path z = len ws) ->
  on_average (a + b) (fun ws => N.of_nat (len ws)) (N.log2 (N.of_nat a) + N.log2 (N.of_nat b) + 4)%N.
Proof.
  intros Ha Hb H. apply (seen_both_log (E := E) a b 0%N); [exact Ha|exact Hb|]. intros ws D.
  destruct (H ws D) as (t & z & Rt & Lt & Hi & La & Lb & F & <-).
  destruct (focus_count_paths t i Rt Lt Hi) as (z' & F' & A & B). rewrite F in F'. injection F' as <-.
  exists (fst (split_count i (contents t))), (snd (split_count i (contents t))). split; [exact La|]. split; [exact Lb|].
  rewrite A, B. lia.
Qed.

Section Reruns.
Context {E M : Type} {RM : RazMeta E M} (eqD : forall x y : tree_data E M, {x = y} + {x <> y}).

Lemma average_change a b k (work : list N -> nat) : (N.of_nat a < 2 ^ 63)%N -> (N.of_nat b < 2 ^ 63)%N ->
  (forall ws, draws (a + b) ws -> exists pre mid post : list (atom E level),
    levels_from pre (firstn a ws) /\ levels_from post (skipn a ws) /\ length (marks mid) <= k /\
    work ws <= 1 + 2 * (seen_from_right pre + length (marks mid) + seen_from_left 0%N post)) ->
  on_average (a + b) (fun ws => N.of_nat (work ws))
    (1 + 2 * (N.of_nat k + N.log2 (N.of_nat a) + N.log2 (N.of_nat b) + 4))%N.
Proof.
  intros Ha Hb H. apply (average_twice _ 1%N _ (fun ws => (N.of_nat (work ws - 1) + 1) / 2)%N).
  - intros ws _. pose proof (N.div_mod (N.of_nat (work ws - 1) + 1) 2). pose proof (N.mod_lt (N.of_nat (work ws - 1) + 1) 2). lia.
  - apply (seen_both_log (E := E)); [exact Ha|exact Hb|]. intros ws D. destruct (H ws D) as (pre & mid & post & La & Lb & K & W).
    exists pre, post. split; [exact La|]. split; [exact Lb|].
    apply N.lt_succ_r, N.div_lt_upper_bound; lia.
Qed.

Lemma average_rerun {R} (f : option R -> tree_data E M -> level -> option name -> option R -> res R)
    a b k (work : list N -> nat) : (N.of_nat a < 2 ^ 63)%N -> (N.of_nat b < 2 ^ 63)%N ->
  (forall ws, draws (a + b) ws -> exists t t' older pre mid mid' post rs T lgs x T' lg,
    Forall (fun t => tree_reached false t) (t' :: t :: older) /\
    orderly_points (map contents (t' :: t :: older)) /\
    contents t = pre ++ mid ++ post /\ contents t' = pre ++ mid' ++ post /\ length (marks mid') <= k /\
    levels_from pre (firstn a ws) /\ levels_from post (skipn a ws) /\
    runs (on_tree (m_fold_up_meta eqD f)) (rev (t :: older)) no_memos = Ok (rs, T, lgs) /\
    on_tree (m_fold_up_meta eqD f) t' T = Ok (x, T', lg) /\ length lg = work ws) ->
  on_average (a + b) (fun ws => N.of_nat (work ws))
    (1 + 2 * (N.of_nat k + N.log2 (N.of_nat a) + N.log2 (N.of_nat b) + 4))%N.
Proof.
  intros Ha Hb H. apply average_change; [exact Ha|exact Hb|]. intros ws D.
  destruct (H ws D) as (t & t' & older & pre & mid & mid' & post & rs & T & lgs & x & T' & lg & Rd & Or & C & C' & K & La & Lb & Rn & Rr & <-).
  exists pre, mid', post. split; [exact La|]. split; [exact Lb|]. split; [exact K|]. eapply up_cost; eassumption.
Qed.
Lemma average_rerun_map {R N'} {RN : RazMeta R N'} (f : E -> R) a b k (work : list N -> nat) :
  (N.of_nat a < 2 ^ 63)%N -> (N.of_nat b < 2 ^ 63)%N ->
  (forall ws, draws (a + b) ws -> exists t t' older pre mid mid' post rs T lgs x T' lg,
    Forall (fun t => tree_reached false t) (t' :: t :: older) /\
    orderly_points (map contents (t' :: t :: older)) /\
    contents t = pre ++ mid ++ post /\ contents t' = pre ++ mid' ++ post /\ length (marks mid') <= k /\
    levels_from pre (firstn a ws) /\ levels_from post (skipn a ws) /\
    runs (m_rt_map eqD (RN := RN) f) (rev (t :: older)) no_memos = Ok (rs, T, lgs) /\
    m_rt_map eqD (RN := RN) f t' T = Ok (x, T', lg) /\ length lg = work ws) ->
  on_average (a + b) (fun ws => N.of_nat (work ws))
    (1 + 2 * (N.of_nat k + N.log2 (N.of_nat a) + N.log2 (N.of_nat b) + 4))%N.
Proof.
  intros Ha Hb H. apply average_change; [exact Ha|exact Hb|]. intros ws D.
  destruct (H ws D) as (t & t' & older & pre & mid & mid' & post & rs & T & lgs & x & T' & lg & Rd & Or & C & C' & K & La & Lb & Rn & Rr & <-).
  exists pre, mid', post. split; [exact La|]. split; [exact Lb|]. split; [exact K|].
  destruct (map_runs eqD (RN := RN) f) as (up & X & Y). apply X in Rr. destruct Rr as (y & Rr).
  apply Y in Rn. destruct Rn as (rs' & Rn). eapply up_cost; eassumption.
Qed.

Lemma rev_levels (l : list (atom E level)) ws : levels_from l ws -> levels_from (rev l) (rev ws).
Proof.
  unfold levels_from. intros H. rewrite map_rev, <- H, <- map_rev. f_equal. clear H.
  induction l as [|[e|m n] l IH]; cbn [rev marks]; [reflexivity|rewrite marks_app, IH; apply app_nil_r|].
  rewrite marks_app, IH. reflexivity.
Qed.
Lemma draws_rev n ws : draws n ws -> draws n (rev ws).
Proof. intros (A & B). split; [now rewrite rev_length|]. now apply Forall_rev. Qed.
Lemma draws_app n m a b : draws n a -> draws m b -> draws (n + m) (a ++ b).
Proof. intros (A & B) (C & D). split; [rewrite app_length; lia|]. now apply Forall_app. Qed.
Lemma sum_draws_rev n : forall g, sum_draws n (fun ws => g (rev ws)) = sum_draws n g.
Proof.
  induction n as [|n IH]; intros g; [reflexivity|]. rewrite sum_draws_snoc. cbn [sum_draws].
  apply sum_below_ext. intros w _. rewrite <- (IH (fun ws => g (w :: ws))). apply sum_draws_ext. intros ws _.
  now rewrite rev_app_distr.
Qed.

Lemma average_convert (eqE : forall x y : E, {x = y} + {x <> y}) n k (work : list N -> nat)
    (conv : astack E level -> mtab (@from_key E M) (@from_result E M) ->
            res (raz_tree E M * mtab (@from_key E M) (@from_result E M) * list (@from_key E M))) :
  conv = m_from_at_tail eqE eqD \/ conv = m_from_at_head eqE eqD -> (N.of_nat n < 2 ^ 63)%N ->
  (forall ws, draws n ws -> exists s s' older l l' ls a b c rs T lgs t T' lg,
    Forall2 stack_of (s' :: s :: older) (l' :: l :: ls) /\ orderly_points (l' :: l :: ls) /\
    l = a ++ c /\ l' = b ++ c /\ length (marks b) <= k /\ levels_from c ws /\
    runs conv (rev (s :: older)) no_memos = Ok (rs, T, lgs) /\ conv s' T = Ok (t, T', lg) /\ length lg = work ws) ->
  on_average n (fun ws => N.of_nat (work ws)) (N.of_nat k + N.log2 (N.of_nat n) + 2)%N.
Proof.
  intros Cv Hn H. unfold on_average.
  assert (B : (sum_draws n (fun ws => N.of_nat (work ws)) <=
    sum_draws n (fun ws => N.of_nat k + seen_r (rev (map gen_branch_level ws)))
    \/ sum_draws n (fun ws => N.of_nat (work ws)) <=
    sum_draws n (fun ws => N.of_nat k + seen_l 0 (map gen_branch_level ws)))%N).
  { destruct Cv as [-> | ->]; [left|right]; apply sum_draws_le; intros ws D;
      destruct (H ws D) as (s & s' & older & l & l' & ls & a & b & c & rs & T & lgs & t & T' & lg & St & Or & A & B & K & Lv & Rn & Rr & <-).
    - pose proof (use_tail_bound eqE eqD s s' older l l' ls a b c rs T lgs t T' lg St Or A B Rn Rr) as X.
      rewrite <- map_rev, <- (rev_levels _ _ Lv), <- seen_r_eq. lia.
    - pose proof (use_head_bound eqE eqD s s' older l l' ls a b c rs T lgs t T' lg St Or A B Rn Rr) as X.
      rewrite <- Lv, <- seen_l_eq. lia. }
  assert (Q : forall g, (sum_draws n g <= (2 ^ 64) ^ N.of_nat n * (N.log2 (N.of_nat n) + 2) ->
    sum_draws n (fun ws => N.of_nat k + g ws) <= (2 ^ 64) ^ N.of_nat n * (N.of_nat k + N.log2 (N.of_nat n) + 2))%N).
  { intros g G. rewrite sum_draws_add, sum_draws_const. set (p := ((2 ^ 64) ^ N.of_nat n)%N) in *. nia. }
  destruct B as [B|B]; (etransitivity; [exact B|]); apply Q.
  - rewrite (sum_draws_ext n _ (fun ws => (fun v => seen_r (map gen_branch_level v)) (rev ws))) by (intros; now rewrite map_rev).
    rewrite (sum_draws_rev n (fun v => seen_r (map gen_branch_level v))). exact (total_r_log n Hn).
  - pose proof (total_l_log n Hn) as X. fold (total_l n). set (p := ((2 ^ 64) ^ N.of_nat n)%N) in *. nia.
Qed.
End Reruns.
