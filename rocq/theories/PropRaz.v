(** * Properties of the Raz as an editor (C07, C08, C11..C13, C18..C20). *)

From Verif Require Import Base Spec SpecRaz StackModel AStackModel StackScripts LevelTreeModel
  TreeCursorModel RazMetaModel RazModel TreeSpec RazView RazScripts RazSession RazFocus RazIndex RazReach
  RazFacts RazExamples.

(** C07. Every reachable Raz answers every script as a pair of element lists ... *)
Theorem C07_raz_is_zipper : forall free (E M : Type) (RM : RazMeta E M) (z : raz E M),
  raz_reached free z -> exists l r, behaves z l r.
Proof. intros. eapply reached_behaves; eassumption. Qed.
Print Assumptions C07_raz_is_zipper.

(** ... which are determined by the answers, ... *)
Theorem C07_lists_unique : forall (E M : Type) (RM : RazMeta E M) (z : raz E M) l r l' r',
  behaves z l r -> behaves z l' r' -> l = l' /\ r = r'.
Proof. intros. eapply behaves_unique; eassumption. Qed.
Print Assumptions C07_lists_unique.

(** ... are both empty at the start, ... *)
Theorem C07_new_is_empty : forall (E M : Type) (RM : RazMeta E M),
  behaves (raz_new : raz E M) [] [].
Proof. intros. exact (session_behaves _ _ new_session). Qed.
Print Assumptions C07_new_is_empty.

(** ... and after a focus cut the tree's elements in two. *)
Theorem C07_focus_cuts : forall free (E M : Type) (RM : RazMeta E M) (t : raz_tree E M) i z,
  tree_reached free t -> lawful RM -> rt_focus t i = Ok (Some z) ->
  exists p q, p ++ q = elts (contents t) /\ behaves z (rev p) q.
Proof. intros. eapply focus_behaves; eassumption. Qed.
Print Assumptions C07_focus_cuts.

Definition script2 : list (zop nat) :=
  [OPopL; OPeekL; OPushR 9; OArchR 4%N None; OPushR 8; OPopR; OPopR; OPopR; OPopR; OPopR; OPopR; OPopL].
Example C07_case : raz_reached false ex_c /\ Forall zop_ok script2 /\
  fst (zip_run ([3; 2; 1], [4; 5; 6]) script2) =
    [Some (Some 3); Some (Some 2); None; None; None; Some (Some 8); Some (Some 9); Some (Some 4);
     Some (Some 5); Some (Some 6); Some None; Some (Some 2)] /\
  option_map (fun p => map zanswer (fst p)) (match zrun ex_c script2 with Ok x => Some x | _ => None end) =
    Some (fst (zip_run ([3; 2; 1], [4; 5; 6]) script2)).
Proof.
  split; [exact ex_c_reached|]. split; [repeat constructor; simpl; lia|]. split; vm_compute; reflexivity.
Qed.

(** C08. [unfocus] keeps the sequence, both as seen in the tree and through [fold_lr]. *)
Theorem C08_unfocus_keeps_sequence : forall free (E M : Type) (RM : RazMeta E M) (z : raz E M) l r,
  raz_reached free z -> behaves z l r ->
  exists t, unfocus z = Ok t /\ elts (contents t) = rev l ++ r /\
    rt_fold_lr t [] (fun acc e => acc ++ [e]) = rev l ++ r.
Proof. intros. eapply reached_unfocus; eassumption. Qed.
Print Assumptions C08_unfocus_keeps_sequence.

Example C08_case : raz_reached false ex_c /\
  unfocus ex_c = Ok ex_tc /\ elts (contents ex_tc) = [1; 2; 3; 4; 5; 6].
Proof. split; [exact ex_c_reached|]. split; vm_compute; reflexivity. Qed.

(** C11. Focusing and unfocusing gives back the very same tree. *)
Theorem C11_focus_unfocus_identity : forall (E M : Type) (RM : RazMeta E M) (t : raz_tree E M) i z,
  lawful RM -> tree_reached false t -> rt_focus t i = Ok (Some z) -> unfocus z = Ok t.
Proof. intros E M RM t i z Lw H F. exact (focus_unfocus t i z Lw (tree_reached_canonical t H) F). Qed.
Print Assumptions C11_focus_unfocus_identity.

Theorem C11_focus_left_unfocus_identity : forall (E M : Type) (RM : RazMeta E M) (t : raz_tree E M),
  tree_reached false t -> exists z, rt_focus_left t = Ok z /\ unfocus z = Ok t.
Proof. intros E M RM t H. exact (focus_left_unfocus t (tree_reached_canonical t H)). Qed.
Print Assumptions C11_focus_left_unfocus_identity.

(** The metadata types of the library all meet the condition on the index. *)
Theorem C11_library_metas_lawful : forall E,
  lawful (unit_meta E) /\ lawful (count_meta E) /\ lawful (names_meta E).
Proof. intros E. exact (conj (lawful_unit E) (conj (lawful_count E) (lawful_names E))). Qed.
Print Assumptions C11_library_metas_lawful.

Example C11_case : tree_reached false ex_tc /\
  (do o <- rt_focus ex_tc (4%N : @Index nat count _);
   match o with Some z => unfocus z | None => Panic "none" end) = Ok ex_tc.
Proof. split; [exact ex_tc_reached|]. vm_compute. reflexivity. Qed.

(** C12. The structure depends only on elements and archive points. *)
Theorem C12_canonical_form : forall (E M : Type) (RM : RazMeta E M) (t1 t2 : raz_tree E M),
  tree_reached false t1 -> tree_reached false t2 -> contents t1 = contents t2 -> t1 = t2.
Proof.
  intros E M RM t1 t2 H1 H2. exact (canonical_unique t1 t2 (tree_reached_canonical t1 H1) (tree_reached_canonical t2 H2)).
Qed.
Print Assumptions C12_canonical_form.

(** Two different histories of the same sequence. *)
Definition other_ops : list (zop nat) :=
  [OPushR 6; OArchR 1%N (Some nm_b); OPushR 5; OPushR 0; OPopR; OPushR 4; OArchR 3%N None; OPushR 3;
   OArchR 2%N (Some nm_a); OPushR 2; OPushR 1].
Definition other_t : raz_tree nat count := Eval vm_compute in raz_to_tree (run_raz other_ops).
Example C12_case : tree_reached false ex_tc /\ tree_reached false other_t /\
  contents ex_tc = contents other_t /\ contents ex_tc <> [].
Proof.
  split; [exact ex_tc_reached|]. split; [|split; [vm_compute; reflexivity|discriminate]].
  refine (TR_unfocus _ _ _ _ (run_raz other_ops) _ _ _); [|vm_compute; reflexivity].
  eapply (zrun_reached other_ops raz_new); [|apply RR_new|vm_compute; reflexivity].
  repeat constructor; simpl; lia.
Qed.

(** C13. Scripts from each start state answer, and then unfocus to, what the zipper
    over elements and archive points says. *)
Theorem C13_archive_points_survive : forall free (E M : Type) (RM : RazMeta E M) (t : raz_tree E M) i z,
  tree_reached free t -> lawful RM -> rt_focus t i = Ok (Some z) ->
  exists p q, p ++ q = contents t /\ session z (sz_at p q).
Proof. intros. eapply focus_session; eassumption. Qed.
Print Assumptions C13_archive_points_survive.

Theorem C13_from_new : forall (E M : Type) (RM : RazMeta E M), session (raz_new : raz E M) sz_new.
Proof. intros. exact new_session. Qed.
Print Assumptions C13_from_new.

(** What unfocusing drops: at most one archive point, and only next to the cursor with
    no element between it and the next archive point or end. *)
Theorem C13_at_most_one_dropped : forall (E : Type) (s : sraz E), let full := rev (s_left s) ++ s_right s in
  (is_mark (s_left s) = false \/ is_elt (s_right s) = true) /\
  (is_mark (s_right s) = false \/ is_elt (s_left s) = true) /\ sz_unfocus s = full \/
  exists a m n b, full = a ++ Mark m n :: b /\ sz_unfocus s = a ++ b /\
    (is_mark (s_left s) = true \/ is_mark (s_right s) = true) /\
    is_elt (s_left s) = false /\ is_elt (s_right s) = false /\
    ((a = rev (s_left s) /\ Mark m n :: b = s_right s) \/
     (a ++ [Mark m n] = rev (s_left s) /\ b = s_right s)).
Proof. intros E. exact sz_unfocus_cases. Qed.
Print Assumptions C13_at_most_one_dropped.

(** Kept, facing each other, and at the end. *)
Example C13_case :
  sz_unfocus (snd (sz_run sz_new ex_ops)) = contents ex_tc /\
  sz_unfocus (snd (sz_run sz_new [OPushL 1; OArchL 2%N (Some nm_a); OPushR 2; OArchR 3%N (Some nm_b)]))
    = [Elt 1; Mark 3%N (Some (in_tree nm_b)); Elt 2] /\
  sz_unfocus (snd (sz_run sz_new [OPushL 1; OArchL 2%N (Some nm_a)])) = [Elt 1].
Proof. repeat split. Qed.

(** C18. [focus_left] is the start of the sequence. *)
Theorem C18_focus_left_is_start : forall free (E M : Type) (RM : RazMeta E M) (t : raz_tree E M),
  tree_reached free t ->
  exists z, rt_focus_left t = Ok z /\ session z (sz_at [] (contents t)) /\ behaves z [] (elts (contents t)).
Proof.
  intros free E M RM t H. destruct (focus_left_session free t H) as (z & F & S).
  exact (ex_intro _ z (conj F (conj S (session_at_behaves z [] _ S)))).
Qed.
Print Assumptions C18_focus_left_is_start.

Example C18_case : tree_reached false ex_tu /\
  (do z <- rt_focus_left ex_tu; do ' (a, z) <- pop_left z; do ' (b, z) <- pop_right z; Ok (a, b))
  = Ok (None, Some 1).
Proof. split; [exact ex_tu_reached|]. vm_compute. reflexivity. Qed.

(** C19. [peek] answers what [pop] would. *)
Theorem C19_peek_is_pop : forall free (E M : Type) (RM : RazMeta E M) (z : raz E M) l r,
  raz_reached free z -> behaves z l r ->
  (exists z', pop_left z = Ok (hd_error l, z') /\ raz_reached free z' /\ behaves z' (tl l) r) /\
  (exists z', pop_right z = Ok (hd_error r, z') /\ raz_reached free z' /\ behaves z' l (tl r)) /\
  peek_left z = Ok (hd_error l) /\ peek_right z = Ok (hd_error r).
Proof. intros. eapply reached_peek; eassumption. Qed.
Print Assumptions C19_peek_is_pop.

Example C19_case : raz_reached false ex_n /\
  peek_left ex_n = Ok (Some 3) /\ peek_right ex_n = Ok (Some 4) /\
  z_l_stack ex_n <> as_new.
Proof. split; [exact ex_n_reached|]. split; [|split]; [vm_compute; reflexivity..|discriminate]. Qed.

(** C20. [push] answers the length of the run it extends. *)
Theorem C20_push_counts_run : forall free (E M : Type) (RM : RazMeta E M) (z : raz E M) s,
  raz_reached free z -> session z s -> forall e,
  fst (push_left z e) = S (length (run (s_left s))) /\
  fst (push_right z e) = S (length (run (s_right s))).
Proof. intros free E M RM z s. exact (reached_push free z s). Qed.
Print Assumptions C20_push_counts_run.

Theorem C20_every_reached_has_session : forall free (E M : Type) (RM : RazMeta E M) (z : raz E M),
  raz_reached free z -> exists s, session z s.
Proof. intros. eapply reached_session; eassumption. Qed.
Print Assumptions C20_every_reached_has_session.

Example C20_case :
  fst (push_left ex_c 7) = 1 /\ fst (push_right ex_c 7) = 3 /\
  run (s_left (snd (sz_run sz_new ex_ops))) = [] /\ run (s_right (snd (sz_run sz_new ex_ops))) = [4; 5].
Proof. repeat split. Qed.
