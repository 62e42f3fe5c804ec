(** * Properties of Stack and AStack (C01..C06). *)

From Verif Require Import Base Spec StackModel AStackModel StackScripts StackProofs.

(** C01. After any sequence of pushes and pulls the stack shows exactly the list. *)
Theorem C01_stack_is_list : forall (T : Type) (ops : list (sop T)),
  let s := stack_run ops in
  let l := list_run ops in
  stack_is_empty s = (match l with [] => true | _ => false end) /\
  stack_peek s = option_map snd (hd_error l) /\
  stack_name s = match l with [] => None | (nm, _) :: _ => nm end /\
  (stack_pull s = None <-> l = []) /\
  iter_take (length l) (stack_iter s) = (map (fun p => (fst p, Some (snd p))) l, None) /\
  forall k, iter_take k (None : iter T) = (repeat (None, None) k, None).
Proof. exact @stack_lifo. Qed.
Print Assumptions C01_stack_is_list.

Example C01_case :
  list_run [SPush (Some (NNum 1)) 10; SPush None 20; SPull; SPush (Some (NNum 2)) 30]
  = [(Some (NNum 2), 30); (Some (NNum 1), 10)].
Proof. reflexivity. Qed.

(** C02. Same answers as a plain stack on which archiving does nothing; no panic. *)
Theorem C02_astack_is_plain_stack : forall (E M : Type) (ops : list (aop E M)),
  Forall (fun o => o <> OpNextArchive) ops ->
  exists obs s', as_run as_new ops = Ok (obs, s') /\
    map answer obs = fst (plain_run [] ops) /\
    as_is_empty s' = match snd (plain_run [] ops) with [] => true | _ => false end.
Proof. exact @as_plain. Qed.
Print Assumptions C02_astack_is_plain_stack.

Definition script1 : list (aop nat N) :=
  [OpPush 4; OpPush 2; OpArchive (Some (NNum 1)) 7%N; OpPush 9; OpPop; OpPeek;
   OpArchive None 5%N; OpPopMeta; OpPush 8; OpArchive None 6%N; OpPop; OpPop; OpPop].
Example C02_case : Forall (fun o => o <> OpNextArchive) script1 /\
  fst (plain_run [] script1) =
   [None; None; None; None; Some (Some 9); Some (Some 2); None; Some (Some 2); None; None;
    Some (Some 8); Some (Some 4); Some None].
Proof. split; [repeat constructor; discriminate|reflexivity]. Qed.

(** C03. Full trace refinement: every call answers as the atom-list specification. *)
Theorem C03_astack_refines_atoms : forall (E M : Type) (ops : list (aop E M)),
  exists s', as_run as_new ops = Ok (fst (sp_run [] ops), s').
Proof. exact @as_refines. Qed.
Print Assumptions C03_astack_refines_atoms.

(** C03. Draining by next_archive. *)
Theorem C03_next_archive_drains : forall (E M : Type)
    (gs : list (list E * option name * M)) (active : list E),
  Forall group_ok gs -> (active <> [] \/ gs <> []) ->
  as_drain (length gs + 1) (as_push_all (as_push_groups gs) active)
  = Ok (drain_spec active (rev gs), as_new).
Proof. exact @as_drain_all. Qed.
Print Assumptions C03_next_archive_drains.

Example C03_case :
  let gs := [([1;2], Some (NNum 1), 7%N); ([3], None, 8%N)] in
  Forall group_ok gs /\
  drain_spec [4;5] (rev gs) = [Some ([4;5], Some 8%N); Some ([3], Some 7%N); Some ([1;2], None)].
Proof. split; [repeat constructor; discriminate|reflexivity]. Qed.
Example C03_case_trace :
  fst (sp_run [] [OpPush 1; OpArchive (Some (NNum 1)) 7%N; OpPush 2; OpArchive None 8%N;
                  OpName; OpPopMeta; OpName; OpNextArchive; OpName; OpActiveData])
  = [SeeNothing; SeeBool true; SeeNothing; SeeBool true; SeeName None;
     SeeEltMeta (Some (2, Some 8%N)); SeeName (Some (NNum 1));
     SeeArchive (Some ([], Some 7%N)); SeeName None; SeeData [1]].
Proof. reflexivity. Qed.

(** C04. *)
Theorem C04_archive_effect : forall (E M : Type) (s : astack E M) (nm : option name) (m : M),
  let '(b, s') := as_archive s nm m in
  (b = true <-> 0 < as_active_len s) /\
  (b = false -> s' = s) /\
  (b = true -> as_active_len s' = 0 /\ as_name s' = nm /\
     as_next_archive s' = Ok (Some ([], Some m), s)).
Proof. exact @as_archive_effect. Qed.
Print Assumptions C04_archive_effect.

Example C04_case :
  fst (as_archive (as_push (@as_new nat N) 3) None 1%N) = true /\
  fst (as_archive (snd (as_archive (as_push (@as_new nat N) 3) None 1%N)) None 1%N) = false.
Proof. split; reflexivity. Qed.

(** C05. active_len is the length of the run above the most recent unopened archive. *)
Theorem C05_active_len : forall (E M : Type) (ops : list (aop E M)),
  exists obs s', as_run as_new ops = Ok (obs, s') /\
    as_active_len s' = length (run (snd (sp_run [] ops))).
Proof.
  intros E M ops. destruct (as_run_spec ops as_new as_new_inv) as (s' & R & A & I).
  do 2 eexists. split; [exact R|]. change [] with (@as_abs E M as_new). rewrite <- A.
  unfold as_active_len. now rewrite run_as_abs, rev_length.
Qed.
Print Assumptions C05_active_len.

(** C05. The documented meaning ("total item count, including archived data") is false. *)
Theorem C05_active_len_doc_refuted : exists (ops : list (aop nat N)) obs s',
  as_run as_new ops = Ok (obs, s') /\
  as_active_len s' <> length (snd (plain_run [] ops)).
Proof.
  exists [OpPush 1; OpArchive None 3%N; OpPush 2]. do 2 eexists. split; [reflexivity|].
  vm_compute. discriminate.
Qed.
Print Assumptions C05_active_len_doc_refuted.

(** C06. Iteration yields the remaining elements, newest first, then None forever. *)
Theorem C06_iter_drains : forall (E M : Type) (ops : list (aop E M)) (n : nat),
  let left := elts (snd (sp_run [] ops)) in
  exists obs s s', as_run as_new ops = Ok (obs, s) /\
    as_iter_take n s = Ok (map Some (firstn n left) ++ repeat None (n - length left), s').
Proof. exact @as_iter_script. Qed.
Print Assumptions C06_iter_drains.

(** C06. In particular all of a stack filled by groups of pushes. *)
Theorem C06_iter_groups : forall (E M : Type) (gs : list (list E * option name * M)) active n,
  Forall group_ok gs ->
  let all := concat (map (fun g => fst (fst g)) gs) ++ active in
  exists s', as_iter_take n (as_push_all (as_push_groups gs) active)
    = Ok (map Some (firstn n (rev all)) ++ repeat None (n - length all), s').
Proof. exact @as_iter_all. Qed.
Print Assumptions C06_iter_groups.

Example C06_case :
  elts (snd (sp_run [] [OpPush 1; OpPush 2; OpArchive None 3%N; OpPush 4; OpPop; OpPush 5]))
  = [5; 2; 1].
Proof. reflexivity. Qed.

(** C68. [extend] is pushing in turn. [extend_rev] of a stack whose active elements are
    [a] is pushing [v] from its last element on, and then [a] again, reversed. *)
Theorem C68_extend : forall (E M : Type) (s : astack E M) (v : list E), as_extend s v = as_push_all s v.
Proof. intros E M s v. exact (eq_sym (as_push_all_eq s v)). Qed.
Print Assumptions C68_extend.

Theorem C68_extend_rev : forall (E M : Type) (s : astack E M) (a v : list E), as_active_len s = 0 ->
  as_extend_rev (as_push_all s a) v = as_push_all s (rev v ++ rev a).
Proof. exact @as_extend_rev_push. Qed.
Print Assumptions C68_extend_rev.

(** So it does not just add the elements in reverse, unless nothing is active. *)
Theorem C68_extend_rev_adds_refuted : exists (s : astack nat N) v, as_extend_rev s v <> as_push_all s (rev v).
Proof. exists (as_push as_new 1), [2]. discriminate. Qed.
Print Assumptions C68_extend_rev_adds_refuted.

Example C68_case :
  let s := snd (as_archive (as_push (@as_new nat N) 7) None 3%N) in
  as_active_len s = 0 /\ as_active_data (as_extend_rev (as_push_all s [1; 2]) [3; 4; 5]) = [5; 4; 3; 2; 1].
Proof. split; reflexivity. Qed.
