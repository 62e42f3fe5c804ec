(** * Properties of the memoised conversions of archive stacks (C90, C91). *)

From Verif Require Import Base Spec SpecRaz StackModel AStackModel StackScripts LevelTreeModel TreeSpec TreeCursorModel
  RazMetaModel RazModel RazView MemoModel MemoSpec MemoFromModel MemoFromSpec StackProofs MemoHistory MemoFrom MemoFromWork
  MemoFromUse.

(** C90. Conversion after conversion of any stacks, with any names, the memoised
    [memo_from] answers what the plain one does. *)
Theorem C90_at_tail : forall (E M : Type) (RM : RazMeta E M) (eqE : forall x y : E, {x = y} + {x <> y})
    (eqD : forall x y : tree_data E M, {x = y} + {x <> y}) (ss : list (astack E level)),
  answer (runs (m_from_at_tail eqE eqD) ss no_memos) = all_ok (map from_at_tail ss).
Proof. intros. apply tail_answers. Qed.
Print Assumptions C90_at_tail.

Theorem C90_at_head : forall (E M : Type) (RM : RazMeta E M) (eqE : forall x y : E, {x = y} + {x <> y})
    (eqD : forall x y : tree_data E M, {x = y} + {x <> y}) (ss : list (astack E level)),
  answer (runs (m_from_at_head eqE eqD) ss no_memos) = all_ok (map from_at_head ss).
Proof. intros. apply head_answers. Qed.
Print Assumptions C90_at_head.

(** C91. Over a history of stacks whose names are not used twice and not reused: a
    conversion runs the builder for the archive points pushed since the last one ([b])
    and for those of the common rest ([c]) that no later point of it is above. *)
Theorem C91_at_tail : forall (E M : Type) (RM : RazMeta E M) (eqE : forall x y : E, {x = y} + {x <> y})
    (eqD : forall x y : tree_data E M, {x = y} + {x <> y})
    (s s' : astack E level) older l l' ls a b c rs T lgs t T' lg,
  Forall2 stack_of (s' :: s :: older) (l' :: l :: ls) -> orderly_points (l' :: l :: ls) ->
  l = a ++ c -> l' = b ++ c ->
  runs (m_from_at_tail eqE eqD) (rev (s :: older)) no_memos = Ok (rs, T, lgs) ->
  m_from_at_tail eqE eqD s' T = Ok (t, T', lg) ->
  length lg <= length (marks b) + seen_from_right (rev c).
Proof. intros. eapply use_tail_bound; eassumption. Qed.
Print Assumptions C91_at_tail.

Theorem C91_at_head : forall (E M : Type) (RM : RazMeta E M) (eqE : forall x y : E, {x = y} + {x <> y})
    (eqD : forall x y : tree_data E M, {x = y} + {x <> y})
    (s s' : astack E level) older l l' ls a b c rs T lgs t T' lg,
  Forall2 stack_of (s' :: s :: older) (l' :: l :: ls) -> orderly_points (l' :: l :: ls) ->
  l = a ++ c -> l' = b ++ c ->
  runs (m_from_at_head eqE eqD) (rev (s :: older)) no_memos = Ok (rs, T, lgs) ->
  m_from_at_head eqE eqD s' T = Ok (t, T', lg) ->
  length lg <= length (marks b) + seen_from_left 0%N c.
Proof. intros. eapply use_head_bound; eassumption. Qed.
Print Assumptions C91_at_head.

(** When something was only added, it is exactly those. *)
Theorem C91_at_tail_added : forall (E M : Type) (RM : RazMeta E M) (eqE : forall x y : E, {x = y} + {x <> y})
    (eqD : forall x y : tree_data E M, {x = y} + {x <> y})
    (s s' : astack E level) older l l' ls b rs T lgs t T' lg,
  Forall2 stack_of (s' :: s :: older) (l' :: l :: ls) -> orderly_points (l' :: l :: ls) ->
  l' = b ++ l -> b <> [] ->
  runs (m_from_at_tail eqE eqD) (rev (s :: older)) no_memos = Ok (rs, T, lgs) ->
  m_from_at_tail eqE eqD s' T = Ok (t, T', lg) ->
  length lg = length (marks b) + seen_from_right (rev l).
Proof. intros. eapply use_tail_extend; eassumption. Qed.
Print Assumptions C91_at_tail_added.

Theorem C91_at_head_added : forall (E M : Type) (RM : RazMeta E M) (eqE : forall x y : E, {x = y} + {x <> y})
    (eqD : forall x y : tree_data E M, {x = y} + {x <> y})
    (s s' : astack E level) older l l' ls b rs T lgs t T' lg,
  Forall2 stack_of (s' :: s :: older) (l' :: l :: ls) -> orderly_points (l' :: l :: ls) ->
  l' = b ++ l -> b <> [] -> (forall p, In p (marks l') -> fst p <> u32_max) ->
  runs (m_from_at_head eqE eqD) (rev (s :: older)) no_memos = Ok (rs, T, lgs) ->
  m_from_at_head eqE eqD s' T = Ok (t, T', lg) ->
  length lg = length (marks b) + seen_from_left 0%N l.
Proof. intros. eapply use_head_extend; eassumption. Qed.
Print Assumptions C91_at_head_added.

(** On an equal stack nothing runs. *)
Theorem C91_unchanged : forall (E M : Type) (RM : RazMeta E M) (eqE : forall x y : E, {x = y} + {x <> y})
    (eqD : forall x y : tree_data E M, {x = y} + {x <> y})
    (s s' : astack E level) older l ls rs T lgs t T' lg,
  Forall2 stack_of (s' :: s :: older) (l :: l :: ls) -> orderly_points (l :: l :: ls) ->
  (runs (m_from_at_tail eqE eqD) (rev (s :: older)) no_memos = Ok (rs, T, lgs) /\
   m_from_at_tail eqE eqD s' T = Ok (t, T', lg)) \/
  (runs (m_from_at_head eqE eqD) (rev (s :: older)) no_memos = Ok (rs, T, lgs) /\
   m_from_at_head eqE eqD s' T = Ok (t, T', lg)) ->
  lg = [].
Proof. intros. eapply use_again; eassumption. Qed.
Print Assumptions C91_unchanged.

(** The first time every archive point is built once; without names every time. *)
Theorem C91_first : forall (E M : Type) (RM : RazMeta E M) (eqE : forall x y : E, {x = y} + {x <> y})
    (eqD : forall x y : tree_data E M, {x = y} + {x <> y}) (s : astack E level) l t T lg,
  stack_of s l -> orderly_points [l] ->
  m_from_at_tail eqE eqD s no_memos = Ok (t, T, lg) \/ m_from_at_head eqE eqD s no_memos = Ok (t, T, lg) ->
  length lg = length (marks l).
Proof. intros. eapply use_first; eassumption. Qed.
Print Assumptions C91_first.

Theorem C91_unnamed_runs_all : forall (E M : Type) (RM : RazMeta E M) (eqE : forall x y : E, {x = y} + {x <> y})
    (eqD : forall x y : tree_data E M, {x = y} + {x <> y}) (ss : list (astack E level)) s l rs T lgs t T' lg,
  stack_of s l -> (forall p, In p (marks l) -> snd p = None) ->
  (runs (m_from_at_tail eqE eqD) ss no_memos = Ok (rs, T, lgs) /\ m_from_at_tail eqE eqD s T = Ok (t, T', lg)) \/
  (runs (m_from_at_head eqE eqD) ss no_memos = Ok (rs, T, lgs) /\ m_from_at_head eqE eqD s T = Ok (t, T', lg)) ->
  length lg = length (marks l).
Proof. intros. eapply use_unnamed; eassumption. Qed.
Print Assumptions C91_unnamed_runs_all.

(** ** Examples *)
#[local] Open Scope N_scope.
Definition nk (k : N) : option name := Some (NNum k).
(** 1 |1:5| 2 |2:3| 3 |3:4| 4 |4:2| 5; then 6 on top; then |5:2| 7; then 8; then without 8, 7 and 6. *)
Definition grow0 : list (aop nat level) :=
  [OpPush 1%nat; OpArchive (nk 1) 5; OpPush 2%nat; OpArchive (nk 2) 3; OpPush 3%nat; OpArchive (nk 3) 4;
   OpPush 4%nat; OpArchive (nk 4) 2; OpPush 5%nat].
Definition grow1 := grow0 ++ [OpPush 6%nat].
Definition grow2 := grow1 ++ [OpArchive (nk 5) 2; OpPush 7%nat].
Definition grow3 := grow2 ++ [OpPush 8%nat].
Definition grow4 := grow3 ++ [OpPop; OpPop; OpPop].
Definition stk (ops : list (aop nat level)) : astack nat level :=
  match as_run as_new ops with Ok (_, s) => s | _ => as_new end.
Definition hist4 : list (astack nat level) := [stk grow0; stk grow1; stk grow2; stk grow3; stk grow4; stk grow4].
Definition seqs4 : list (list (atom nat level)) :=
  map (fun ops => snd (sp_run [] ops)) [grow0; grow1; grow2; grow3; grow4; grow4].
Definition eq_counts : forall x y : count, {x = y} + {x <> y}.
Proof. intros [a] [b]. destruct (N.eq_dec a b); [left|right]; congruence. Defined.
Definition eqN := td_eq_dec (E := nat) (M := count) Nat.eq_dec eq_counts.
Definition counts {Y K R L} (r : res (list Y * mtab K R * list (list L))) : option (list nat) :=
  match r with Ok (_, _, lgs) => Some (map (@length L) lgs) | _ => None end.
Lemma hist4_stacks : Forall2 stack_of hist4 seqs4.
Proof.
  assert (X : forall ops, stack_of (stk ops) (snd (sp_run [] ops))).
  { intros ops. destruct (as_run_spec ops (as_new : astack nat level) as_new_inv) as (s & R & _ & _).
    exists ops, (fst (sp_run [] ops)). unfold stk. change (@as_abs nat level as_new) with (@nil (atom nat level)) in R.
    rewrite R. now split. }
  unfold hist4, seqs4. cbn [map]. repeat (apply Forall2_cons; [apply X|]). apply Forall2_nil.
Qed.
Fixpoint all_differ (l : list (option name)) : bool :=
  match l with
  | [] => true
  | a :: r => if existsb (fun b => if oname_eq_dec a b then true else false) r then false else all_differ r
  end.
Lemma seqs4_orderly : orderly_points (rev seqs4).
Proof.
  assert (ND : forall l : list (option name), (if all_differ l then True else False) -> NoDup l).
  { induction l as [|a l IH]; intros H; [constructor|]. cbn [all_differ] in H.
    destruct (existsb (fun b => if oname_eq_dec a b then true else false) l) eqn:Ex; [contradiction|].
    constructor; [|now apply IH]. intros I. rewrite <- not_true_iff_false in Ex. apply Ex, existsb_exists.
    exists a. split; [exact I|]. now destruct (oname_eq_dec a a). }
  unfold seqs4. cbn [map rev app orderly_points].
  repeat match goal with |- _ /\ _ => split end; try exact I.
  all: try (intros p Hp; vm_compute in Hp; repeat (destruct Hp as [<-|Hp]; [discriminate|]); contradiction).
  all: try (apply ND; vm_compute; exact I).
  all: intros n H; try exact I; vm_compute in H;
    repeat (destruct H as [H|H]; [injection H as <-; try (left; vm_compute; tauto)|]); try contradiction.
  right. intros u [<-|[<-|[]]] Q; vm_compute in Q; repeat (destruct Q as [Q|Q]; [discriminate|]); contradiction.
Qed.
Example C90_case :
  (do ' (ts, _, _) <- runs (m_from_at_tail Nat.eq_dec eqN) hist4 no_memos; Ok (map (fun t => elts (contents t)) ts)) =
    Ok [[1; 2; 3; 4; 5]; [1; 2; 3; 4; 5; 6]; [1; 2; 3; 4; 5; 6; 7]; [1; 2; 3; 4; 5; 6; 7; 8];
        [1; 2; 3; 4; 5]; [1; 2; 3; 4; 5]]%nat /\
  (do ' (ts, _, _) <- runs (m_from_at_head Nat.eq_dec eqN) hist4 no_memos; Ok (map (fun t => elts (contents t)) ts)) =
    Ok [[5; 4; 3; 2; 1]; [6; 5; 4; 3; 2; 1]; [7; 6; 5; 4; 3; 2; 1]; [8; 7; 6; 5; 4; 3; 2; 1];
        [5; 4; 3; 2; 1]; [5; 4; 3; 2; 1]]%nat.
Proof. split; vm_compute; reflexivity. Qed.

(** In the first stack the archive points 4, 3 and 1 have no later one above them. Of two
    equal ones a conversion at the head has to run for the newer one only. *)
Example C91_case : Forall2 stack_of hist4 seqs4 /\ orderly_points (rev seqs4) /\
  counts (runs (m_from_at_tail Nat.eq_dec eqN) hist4 no_memos) = Some [4; 3; 4; 4; 3; 0]%nat /\
  counts (runs (m_from_at_head Nat.eq_dec eqN) hist4 no_memos) = Some [4; 3; 4; 3; 3; 0]%nat /\
  map (fun l => seen_from_right (rev l)) seqs4 = [3; 3; 4; 4; 3; 3]%nat /\
  map (seen_from_left 0) seqs4 = [3; 3; 3; 3; 3; 3]%nat.
Proof.
  split; [exact hist4_stacks|]. split; [exact seqs4_orderly|]. repeat split; vm_compute; reflexivity.
Qed.

(** Two runs without names. *)
Definition plain : list (aop nat level) := [OpPush 1%nat; OpArchive None 3; OpPush 2%nat; OpArchive None 1; OpPush 3%nat].
Example C91_unnamed_case :
  counts (runs (m_from_at_tail Nat.eq_dec eqN) [stk plain; stk plain] no_memos) = Some [2; 2]%nat /\
  counts (runs (m_from_at_head Nat.eq_dec eqN) [stk plain; stk plain] no_memos) = Some [2; 2]%nat.
Proof. split; vm_compute; reflexivity. Qed.

(** The exact count needs the levels below the largest number: a conversion at the head
    starts with that number as its bound, so below a new archive point of that level
    everything is found again. *)
Example C91_largest_level :
  counts (runs (m_from_at_head Nat.eq_dec eqN) [stk grow0; stk (grow0 ++ [OpArchive (nk 5) u32_max])] no_memos) =
    Some [4; 1]%nat /\
  seen_from_left 0 (snd (sp_run [] grow0)) = 3%nat.
Proof. split; vm_compute; reflexivity. Qed.
