(** * The path to the cursor, and averages over generated levels (C92..C94). *)

From Verif Require Import Base Spec SpecRaz StackModel AStackModel LevelTreeModel TreeSpec TreeCursorModel
  RazMetaModel RazModel RazView RazScripts RazSession RazIndex LevelGenModel MemoModel MemoSpec MemoFromModel MemoFromSpec
  PathSpec RazPath ChanceSpec Chance ChanceCases ChanceUse RazExamples RazReach ChanceRuns MemoHistory MemoFrom PropRazOps.

(** C92. Focusing keeps the nodes whose archive points are seen from the cursor: to the
    left those with no higher one between, to the right those with only lower ones
    between. Later edits count from the archive points that are not new. *)
Theorem C92_path : forall (E M : Type) (RM : RazMeta E M) (t : raz_tree E M) i z,
  tree_reached false t -> lawful RM -> rt_focus t i = Ok (Some z) ->
  exists p q, p ++ q = contents t /\ session z (sz_at p q) /\
  forall ops os z', Forall zop_ok ops -> zrun z ops = Ok (os, z') ->
  let s := snd (sz_run (sz_at p q) ops) in
  left_path z' = seen_from_right (rev (beyond (s_lnew s) (s_left s))) /\
  right_path z' = seen_from_left 0%N (beyond (s_rnew s) (s_right s)).
Proof. intros E M RM. exact focus_paths. Qed.
Print Assumptions C92_path.

Theorem C92_count_path : forall (E : Type) (t : raz_tree E count) i,
  tree_reached false t -> (n_elts (contents t) < usize_mod)%N -> i <= length (elts (contents t)) ->
  exists z, rt_focus t (N.of_nat i) = Ok (Some z) /\
    left_path z = seen_from_right (fst (split_count i (contents t))) /\
    right_path z = seen_from_left 0%N (snd (split_count i (contents t))).
Proof. intros E. exact focus_count_paths. Qed.
Print Assumptions C92_count_path.

(** With generated levels the right part has at most 64 nodes; ... *)
Theorem C92_right_path_short : forall (E : Type) (t : raz_tree E count) i z,
  tree_reached false t -> (n_elts (contents t) < usize_mod)%N -> i <= length (elts (contents t)) ->
  (forall p, In p (marks (contents t)) -> (fst p <= 64)%N) ->
  rt_focus t (N.of_nat i) = Ok (Some z) -> right_path z <= 64.
Proof. intros E. exact right_path_short. Qed.
Print Assumptions C92_right_path_short.

(** ... that the left part is short as well is refuted: with equal levels it has a node
    for every archive point. *)
Theorem C92_left_path_short_refuted : forall n, (N.of_nat (S n) < usize_mod)%N ->
  exists (t : raz_tree nat count) z, tree_reached false t /\ length (marks (contents t)) = n /\
  (forall p, In p (marks (contents t)) -> fst p = 1%N) /\
  rt_focus t (N.of_nat (S n)) = Ok (Some z) /\ left_path z = n.
Proof. exact left_path_long. Qed.
Print Assumptions C92_left_path_short_refuted.

(** C93. Averages over all draws of words for the levels of [n] archive points: the exact
    number seen from the right, ... *)
Theorem C93_seen_from_right : forall (E : Type) n (l : list N -> list (atom E level)),
  (forall ws, draws n ws -> levels_from (l ws) ws) ->
  (2 ^ 64 * (sum_draws n (fun ws => N.of_nat (seen_from_right (l ws))) +
             over_levels 1 63 (fun k => (2 ^ 64 - 2 ^ (64 - k)) ^ N.of_nat n)) =
   (2 ^ 64) ^ N.of_nat n * (63 * 2 ^ 64 + 2 * N.of_nat n))%N.
Proof. intros E. exact seen_right_exact. Qed.
Print Assumptions C93_seen_from_right.

(** ... the exact number seen from the left, ... *)
Theorem C93_seen_from_left : forall (E : Type) n (l : list N -> list (atom E level)),
  (forall ws, draws n ws -> levels_from (l ws) ws) ->
  (2 * sum_draws n (fun ws => N.of_nat (seen_from_left 0 (l ws))) +
     over_levels 1 63 (fun k => (2 ^ 64 - 2 ^ (65 - k)) ^ N.of_nat n) + 2 * (2 ^ 64 - 2) ^ N.of_nat n =
   65 * (2 ^ 64) ^ N.of_nat n)%N.
Proof. intros E. exact seen_left_exact. Qed.
Print Assumptions C93_seen_from_left.

(** ... logarithmic bounds for both, ... *)
Theorem C93_logarithmic : forall (E : Type) n (l : list N -> list (atom E level)),
  (forall ws, draws n ws -> levels_from (l ws) ws) -> (N.of_nat n < 2 ^ 63)%N ->
  on_average n (fun ws => N.of_nat (seen_from_right (l ws))) (N.log2 (N.of_nat n) + 2)%N /\
  on_average n (fun ws => 2 * N.of_nat (seen_from_left 0 (l ws)))%N (N.log2 (N.of_nat n) + 3)%N.
Proof. intros E n l H Hn. split; [now apply seen_right_log|now apply seen_left_log]. Qed.
Print Assumptions C93_logarithmic.

(** ... and for the path to a cursor with [a] archive points before it and [b] after it. *)
Theorem C93_path : forall (E : Type) a b i (len : list N -> nat),
  (N.of_nat a < 2 ^ 63)%N -> (N.of_nat b < 2 ^ 63)%N ->
  (forall ws, draws (a + b) ws -> exists (t : raz_tree E count) z,
    tree_reached false t /\ (n_elts (contents t) < usize_mod)%N /\ i <= length (elts (contents t)) /\
    levels_from (fst (split_count i (contents t))) (firstn a ws) /\
    levels_from (snd (split_count i (contents t))) (skipn a ws) /\
    rt_focus t (N.of_nat i) = Ok (Some z) /\ left_path z + right_path z = len ws) ->
  on_average (a + b) (fun ws => N.of_nat (len ws)) (N.log2 (N.of_nat a) + N.log2 (N.of_nat b) + 4)%N.
Proof. intros E. exact average_path. Qed.
Print Assumptions C93_path.

(** C94. On average over the levels of the [a] archive points before and the [b] after a
    change that leaves at most [k] between, the rerun of a bottom-up fold ... *)
Theorem C94_rerun_fold_up : forall (E M : Type) (RM : RazMeta E M)
    (eqD : forall x y : tree_data E M, {x = y} + {x <> y})
    (R : Type) (f : option R -> tree_data E M -> level -> option name -> option R -> res R)
    a b k (work : list N -> nat),
  (N.of_nat a < 2 ^ 63)%N -> (N.of_nat b < 2 ^ 63)%N ->
  (forall ws, draws (a + b) ws -> exists t t' older pre mid mid' post rs T lgs x T' lg,
    Forall (fun t => tree_reached false t) (t' :: t :: older) /\
    orderly_points (map contents (t' :: t :: older)) /\
    contents t = pre ++ mid ++ post /\ contents t' = pre ++ mid' ++ post /\ length (marks mid') <= k /\
    levels_from pre (firstn a ws) /\ levels_from post (skipn a ws) /\
    runs (on_tree (m_fold_up_meta eqD f)) (rev (t :: older)) no_memos = Ok (rs, T, lgs) /\
    on_tree (m_fold_up_meta eqD f) t' T = Ok (x, T', lg) /\ length lg = work ws) ->
  on_average (a + b) (fun ws => N.of_nat (work ws))
    (1 + 2 * (N.of_nat k + N.log2 (N.of_nat a) + N.log2 (N.of_nat b) + 4))%N.
Proof. intros E M RM eqD R f. exact (average_rerun eqD f). Qed.
Print Assumptions C94_rerun_fold_up.

(** ... or of map enters logarithmically many nodes, ... *)
Theorem C94_rerun_map : forall (E M : Type) (RM : RazMeta E M)
    (eqD : forall x y : tree_data E M, {x = y} + {x <> y}) (R N' : Type) (RN : RazMeta R N') (f : E -> R)
    a b k (work : list N -> nat),
  (N.of_nat a < 2 ^ 63)%N -> (N.of_nat b < 2 ^ 63)%N ->
  (forall ws, draws (a + b) ws -> exists t t' older pre mid mid' post rs T lgs x T' lg,
    Forall (fun t => tree_reached false t) (t' :: t :: older) /\
    orderly_points (map contents (t' :: t :: older)) /\
    contents t = pre ++ mid ++ post /\ contents t' = pre ++ mid' ++ post /\ length (marks mid') <= k /\
    levels_from pre (firstn a ws) /\ levels_from post (skipn a ws) /\
    runs (m_rt_map eqD (RN := RN) f) (rev (t :: older)) no_memos = Ok (rs, T, lgs) /\
    m_rt_map eqD (RN := RN) f t' T = Ok (x, T', lg) /\ length lg = work ws) ->
  on_average (a + b) (fun ws => N.of_nat (work ws))
    (1 + 2 * (N.of_nat k + N.log2 (N.of_nat a) + N.log2 (N.of_nat b) + 4))%N.
Proof. intros E M RM eqD R N' RN f. exact (average_rerun_map eqD f). Qed.
Print Assumptions C94_rerun_map.

(** ... and the conversion of a stack that has got [k] archive points more runs the builder
    logarithmically often. *)
Theorem C94_convert : forall (E M : Type) (RM : RazMeta E M) (eqE : forall x y : E, {x = y} + {x <> y})
    (eqD : forall x y : tree_data E M, {x = y} + {x <> y}) n k (work : list N -> nat)
    (conv : astack E level -> mtab (@from_key E M) (@from_result E M) ->
            res (raz_tree E M * mtab (@from_key E M) (@from_result E M) * list (@from_key E M))),
  conv = m_from_at_tail eqE eqD \/ conv = m_from_at_head eqE eqD -> (N.of_nat n < 2 ^ 63)%N ->
  (forall ws, draws n ws -> exists s s' older l l' ls a b c rs T lgs t T' lg,
    Forall2 stack_of (s' :: s :: older) (l' :: l :: ls) /\ orderly_points (l' :: l :: ls) /\
    l = a ++ c /\ l' = b ++ c /\ length (marks b) <= k /\ levels_from c ws /\
    runs conv (rev (s :: older)) no_memos = Ok (rs, T, lgs) /\ conv s' T = Ok (t, T', lg) /\ length lg = work ws) ->
  on_average n (fun ws => N.of_nat (work ws)) (N.of_nat k + N.log2 (N.of_nat n) + 2)%N.
Proof. intros E M RM eqE eqD n k work conv. exact (average_convert eqD eqE n k work conv). Qed.
Print Assumptions C94_convert.

(** ** Examples *)
(** 0 |3| 1 |1| 2 |4| 3 |2| 4 |5| 5 |1| 6 from words with so many zeros at the end. *)
Definition six : list N := [4; 1; 8; 2; 16; 1]%N.
Definition six_tree : raz_tree nat count := drawn (fun i => i) six.
Definition paths (z : res (option (raz nat count))) : option (nat * nat) :=
  match z with Ok (Some z) => Some (left_path z, right_path z) | _ => None end.
Definition after (z : res (option (raz nat count))) (ops : list (zop nat)) : res (option (raz nat count)) :=
  match z with Ok (Some z) => do ' (_, z') <- zrun z ops; Ok (Some z') | _ => Ok None end.
Example C92_case : tree_reached false six_tree /\ map fst (marks (contents six_tree)) = [3; 1; 4; 2; 5; 1]%N /\
  map (fun i => paths (rt_focus six_tree i)) [0; 1; 2; 3; 4; 5; 6; 7]%N =
    [Some (0, 3); Some (0, 3); Some (1, 3); Some (2, 2); Some (1, 2); Some (2, 1); Some (1, 1); Some (2, 0)] /\
  (** New archive points do not count; those removed no longer do, and ones hidden by them do again. *)
  let ops := [OPushL 8; OArchL 7%N None; OPushL 9] in
  paths (after (rt_focus six_tree 4%N) ops) = Some (1, 2) /\
  paths (after (rt_focus six_tree 4%N) (ops ++ [OPopL; OPopL; OPopL; OPopL])) = Some (2, 2) /\
  paths (after (rt_focus six_tree 4%N) [OPopR; OPopR]) = Some (1, 1).
Proof.
  split; [apply (drawn_ok _ 6); split; [reflexivity|repeat constructor]|].
  repeat split; vm_compute; reflexivity.
Qed.

(** One word: one node on average. Three: between two and two and a half from the right,
    where the bound is three, and between one and two from the left. *)
Example C93_case : forall l : list N -> list (atom nat level), (forall n ws, draws n ws -> levels_from (l ws) ws) ->
  sum_draws 1 (fun ws => N.of_nat (seen_from_right (l ws))) = (2 ^ 64)%N /\
  on_average 3 (fun ws => 2 * N.of_nat (seen_from_right (l ws)))%N 5 /\
  ~ on_average 3 (fun ws => N.of_nat (seen_from_right (l ws))) 2 /\
  (N.log2 (N.of_nat 3) + 2 = 3)%N /\
  on_average 3 (fun ws => 2 * N.of_nat (seen_from_left 0 (l ws)))%N 4 /\
  ~ on_average 3 (fun ws => N.of_nat (seen_from_left 0 (l ws)))%N 1.
Proof.
  intros l H. pose proof (one_right _ (C93_seen_from_right nat 1 l (H 1))) as A.
  destruct (three_right _ (C93_seen_from_right nat 3 l (H 3))) as (B1 & B2).
  destruct (three_left _ (C93_seen_from_left nat 3 l (H 3))) as (C1 & C2).
  split; [exact A|]. split; [exact (average_double _ _ _ B1)|]. split; [exact B2|]. split; [vm_compute; reflexivity|].
  split; [exact (average_double _ _ _ C1)|exact C2].
Qed.

(** For trees of [a + b] archive points, focused after the first [a]. *)
Example C93_path_case : (forall a b, (N.of_nat (a + b) < 2 ^ 63)%N ->
  on_average (a + b) (fun ws => N.of_nat (path_at (fun i => i) a ws)) (N.log2 (N.of_nat a) + N.log2 (N.of_nat b) + 4)%N) /\
  map (fun a => path_at (fun i => i) a six) [0; 1; 2; 3; 4; 5; 6] = [3; 4; 4; 3; 3; 2; 2].
Proof.
  split; [|vm_compute; reflexivity]. intros a b Hn. apply (C93_path nat a b (S a)); [lia|lia|].
  intros ws D. exact (path_at_ok (fun i => i) a b ws Hn D).
Qed.

(** The element after the first [a] archive points replaced by 100. *)
Definition edit_work (a : nat) (ws : list N) : nat :=
  second (m_rt_fold_up eq_node (fun e => e) Nat.add) (drawn (fun i => i) ws) (drawn (fun i => if i =? a then 100 else i) ws).
Example C94_case : (forall a b, (N.of_nat a < 2 ^ 63)%N -> (N.of_nat b < 2 ^ 63)%N ->
  on_average (a + b) (fun ws => N.of_nat (edit_work a ws)) (1 + 2 * (N.of_nat 0 + N.log2 (N.of_nat a) + N.log2 (N.of_nat b) + 4))%N) /\
  map (fun a => edit_work a six) [0; 1; 2; 3; 4; 5; 6] = [4; 5; 5; 4; 4; 3; 3].
Proof.
  split; [|vm_compute; reflexivity]. intros a b Ha Hb.
  apply (C94_rerun_fold_up nat count _ eq_node nat (up_node (fun e => e) Nat.add)); [exact Ha|exact Hb|].
  intros ws D. destruct (edit_ok a b ws D) as (t & t' & older & pre & mid & mid' & post & -> & -> & -> & Rd & Or & C & C' & K & La & Lb).
  inversion Rd as [|? ? R' Rd']. inversion Rd' as [|? ? R _]. subst.
  destruct (second_ok (m_rt_fold_up eq_node (fun e => e) Nat.add) (fun t => rt_fold_up t (fun e => e) Nat.add) _ _ _ _
    (up_answers eq_node (up_node (fun e => e) Nat.add) _)
    (C21_fold_up _ _ _ _ _ _ (fun e => e) Nat.add R (fun a b c => eq_sym (Nat.add_assoc a b c))) (C21_fold_up _ _ _ _ _ _ (fun e => e) Nat.add R' (fun a b c => eq_sym (Nat.add_assoc a b c))))
    as (rs & T & lgs & x & T' & lg & Rn & Rr & Ln).
  exists (drawn (fun i => i) ws), (drawn (fun i => if i =? a then 100 else i) ws), [], pre, mid, mid', post, rs, T, lgs, x, T', lg.
  do 7 (split; [assumption|]). split; [exact Rn|]. split; [exact Rr|exact Ln].
Qed.

(** A stack with another element pushed. *)
Definition convert_work (conv : astack nat level -> mtab (@from_key nat count) (@from_result nat count) ->
    res (raz_tree nat count * mtab (@from_key nat count) (@from_result nat count) * list (@from_key nat count))) (ws : list N) : nat :=
  second conv (stack_run (stack_at ws)) (stack_run (grown ws)).
Example C94_convert_case : (forall n, (N.of_nat n < 2 ^ 63)%N ->
  on_average n (fun ws => N.of_nat (convert_work (m_from_at_tail Nat.eq_dec eq_node) ws)) (N.of_nat 0 + N.log2 (N.of_nat n) + 2)%N /\
  on_average n (fun ws => N.of_nat (convert_work (m_from_at_head Nat.eq_dec eq_node) ws)) (N.of_nat 0 + N.log2 (N.of_nat n) + 2)%N) /\
  convert_work (m_from_at_tail Nat.eq_dec eq_node) six = 3 /\ convert_work (m_from_at_head Nat.eq_dec eq_node) six = 3.
Proof.
  split; [|split; vm_compute; reflexivity]. intros n Hn.
  split; [apply (C94_convert nat count _ Nat.eq_dec eq_node n 0 _ (m_from_at_tail Nat.eq_dec eq_node)); [now left|exact Hn|]
         |apply (C94_convert nat count _ Nat.eq_dec eq_node n 0 _ (m_from_at_head Nat.eq_dec eq_node)); [now right|exact Hn|]];
    intros ws D; destruct (grow_ok n ws D) as (s & s' & older & l & l' & ls & a & b & c & -> & -> & -> & St & Or & A & B & K & Lv & F);
    destruct F as ((t1 & F1) & (t2 & F2) & (t3 & F3) & (t4 & F4)).
  - destruct (second_ok (m_from_at_tail Nat.eq_dec eq_node) from_at_tail _ _ _ _ (tail_answers Nat.eq_dec eq_node _) F1 F2)
      as (rs & T & lgs & x & T' & lg & Rn & Rr & Ln).
    exists (stack_run (stack_at ws)), (stack_run (grown ws)), [], l, l', ls, a, b, c, rs, T, lgs, x, T', lg.
    do 6 (split; [assumption|]). split; [exact Rn|]. split; [exact Rr|exact Ln].
  - destruct (second_ok (m_from_at_head Nat.eq_dec eq_node) from_at_head _ _ _ _ (head_answers Nat.eq_dec eq_node _) F3 F4)
      as (rs & T & lgs & x & T' & lg & Rn & Rr & Ln).
    exists (stack_run (stack_at ws)), (stack_run (grown ws)), [], l, l', ls, a, b, c, rs, T, lgs, x, T', lg.
    do 6 (split; [assumption|]). split; [exact Rn|]. split; [exact Rr|exact Ln].
Qed.
