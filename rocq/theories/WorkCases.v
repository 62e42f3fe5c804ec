(** * The moves of an insertion into the trees of [ChanceRuns]. *)

From Verif Require Import Base BaseFacts Spec SpecRaz StackModel AStackModel StackProofs LevelTreeModel TreeSpec TreeCursorModel RazMetaModel
  RazModel RazView RazProofs RazScripts RazSession RazReach RazFacts RazIndex LevelGenModel MemoSpec PathSpec RazPath ChanceSpec Chance ChanceCases ChanceRuns
  WorkModel WorkSpec WorkFacts WorkRaz.

(** Focusing, running a script, unfocusing: the moves of each. *)
Definition moves (t : raz_tree nat count) (i : nat) (ops : list (zop nat)) : nat * nat * nat :=
  match w_focus t (N.of_nat i) with
  | Ok (n1, Some z) =>
      match w_run z ops with
      | Ok (n2, (_, z')) => match w_unfocus z' with Ok (n3, _) => (n1, n2, n3) | _ => (n1, n2, 0) end
      | _ => (n1, 0, 0)
      end
  | _ => (0, 0, 0)
  end.
Definition all_moves (m : nat * nat * nat) : nat := fst (fst m) + snd (fst m) + snd m.
(** An element inserted after the one with number [a]. *)
Definition insert_moves (a : nat) (ws : list N) : nat := all_moves (moves (drawn (fun i => i) ws) (S a) [OPushL 100]).

Lemma insert_moves_ok a b ws : (N.of_nat (a + b) < 2 ^ 63)%N -> draws (a + b) ws ->
  exists (t : raz_tree nat count) i ops n1 z n2 os z' n3 t',
    tree_reached false t /\ (n_elts (contents t) < usize_mod)%N /\ i <= length (elts (contents t)) /\
    Forall zop_ok ops /\ Forall no_peek ops /\ length ops <= 1 /\
    (let s := snd (sz_run (sz_focus_count i (contents t)) ops) in
     levels_from (rev (beyond (s_lnew s) (s_left s))) (firstn a ws) /\ levels_from (beyond (s_rnew s) (s_right s)) (skipn a ws)) /\
    w_focus t (N.of_nat i) = Ok (n1, Some z) /\ w_run z ops = Ok (n2, (os, z')) /\ w_unfocus z' = Ok (n3, t') /\
    n1 + n2 + n3 = insert_moves a ws.
Proof.
  intros Hn D. set (t := drawn (fun i => i) ws).
  destruct (drawn_ok (fun i => i) (a + b) ws D) as (R & C). fold t in R, C. pose proof (proj1 D) as Ln.
  assert (El : length (elts (contents t)) = S (a + b)) by (rewrite C, chain_elts, map_length, Ln; reflexivity).
  assert (Lt : (n_elts (contents t) < usize_mod)%N).
  { unfold n_elts. rewrite El. change usize_mod with (2 * 2 ^ 63)%N. revert Hn. generalize (2 ^ 63)%N. lia. }
  assert (Hi : S a <= length (elts (contents t))) by lia.
  destruct (focus_count_sim t (S a) (tree_reached_good _ R) Lt Hi) as (z & F & Sm & _).
  destruct (chain_split (fun i => i) a 0 (map gen_branch_level ws)) as (p & q & X & _ & Lp & Lq); [rewrite map_length; lia|].
  assert (Fo : Forall zop_ok [OPushL 100]) by repeat constructor.
  destruct (sim_session _ _ Sm [OPushL 100] Fo) as (z' & t' & Rz & U & _).
  destruct (counts_focus _ _ _ F) as (n1 & W1). destruct (counts_run _ _ _ Rz) as (n2 & W2). destruct (counts_unfocus _ _ U) as (n3 & W3).
  exists t, (S a), [OPushL 100], n1, z, n2. eexists. exists z', n3, t'.
  split; [exact R|]. split; [exact Lt|]. split; [exact Hi|]. split; [exact Fo|]. split; [repeat constructor|]. split; [cbn; lia|].
  split; [|split; [exact W1|split; [exact W2|split; [exact W3|]]]].
  - unfold sz_focus_count. rewrite C, X. cbn. rewrite rev_involutive. unfold levels_from.
    rewrite marks_app. cbn [marks]. rewrite app_nil_r, Lp, beyond_0, Lq, firstn_map, skipn_map. split; reflexivity.
  - unfold insert_moves, moves. fold t. rewrite W1, W2, W3. reflexivity.
Qed.
