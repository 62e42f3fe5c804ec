(** * Properties of focusing and metadata (C09, C10, C14..C17). *)

From Verif Require Import Base Spec SpecRaz StackModel AStackModel StackScripts LevelTreeModel
  TreeCursorModel RazMetaModel RazModel TreeSpec RazView RazScripts RazSession RazIndex RazReach
  RazMetaFacts RazExamples.

(** C09. Count-focus lands at the requested index. *)
Theorem C09_count_focus : forall free (E : Type) (t : raz_tree E count) i,
  tree_reached free t -> (n_elts (contents t) < usize_mod)%N -> i <= length (elts (contents t)) ->
  exists z, rt_focus t (N.of_nat i) = Ok (Some z) /\
    session z (sz_focus_count i (contents t)) /\
    behaves z (rev (firstn i (elts (contents t)))) (skipn i (elts (contents t))).
Proof. intros free E t i. exact (reached_focus_count free t i). Qed.
Print Assumptions C09_count_focus.

Theorem C09_usize_max_is_end : forall free (E : Type) (t : raz_tree E count),
  tree_reached free t ->
  exists z, rt_focus t usize_max = Ok (Some z) /\
    session z (sz_at (contents t) []) /\ behaves z (rev (elts (contents t))) [].
Proof. intros free E t. exact (reached_focus_last free t). Qed.
Print Assumptions C09_usize_max_is_end.

Theorem C09_empty_any_index : forall free (E M : Type) (RM : RazMeta E M) (t : raz_tree E M) i,
  tree_reached free t -> contents t = [] -> rt_focus t i = Ok (Some raz_new).
Proof. exact empty_focus. Qed.
Print Assumptions C09_empty_any_index.

Example C09_case : tree_reached false ex_tc /\ (n_elts (contents ex_tc) < usize_mod)%N /\
  4 <= length (elts (contents ex_tc)) /\
  (do o <- rt_focus ex_tc (4%N : @Index nat count _);
   match o with
   | Some z => do ' (a, _) <- pop_left z; do ' (b, _) <- pop_right z; Ok (a, b)
   | None => Panic "none"
   end) = Ok (Some 4, Some 5) /\
  firstn 4 (elts (contents ex_tc)) = [1; 2; 3; 4].
Proof.
  split; [exact ex_tc_reached|]. split; [reflexivity|]. split; [simpl; lia|]. split; vm_compute; reflexivity.
Qed.

(** C10. Out of range: [None] if there is an archive point, otherwise a panic. *)
Theorem C10_count_focus_out_of_range : forall free (E : Type) (t : raz_tree E count) (i : N),
  tree_reached free t -> (n_elts (contents t) < usize_mod)%N ->
  (n_elts (contents t) < i)%N -> i <> usize_max -> contents t <> [] ->
  rt_focus t i = (if is_nil (marks (contents t)) then Panic "split_at: mid > len" else Ok None).
Proof. intros free E t i H. exact (focus_count_over t i (tree_reached_good t H)). Qed.
Print Assumptions C10_count_focus_out_of_range.

Definition one_run : raz_tree nat count := Eval vm_compute in raz_to_tree (run_raz [OPushL 1; OPushL 2]).
Example C10_case : tree_reached false ex_tc /\ (n_elts (contents ex_tc) < 7)%N /\
  is_nil (marks (contents ex_tc)) = false /\
  tree_reached false one_run /\ (n_elts (contents one_run) < 3)%N /\
  is_nil (marks (contents one_run)) = true /\
  rt_focus one_run (3%N : @Index nat count _) = Panic "split_at: mid > len".
Proof.
  split; [exact ex_tc_reached|]. split; [reflexivity|]. split; [reflexivity|]. split; [|repeat split].
  refine (TR_from_vec _ _ _ _ [1; 2] _ _). vm_compute. reflexivity.
Qed.

(** C14. Count metadata. *)
Theorem C14_count_meta : forall free (E : Type) (t : raz_tree E count), tree_reached free t ->
  (count_n (rt_meta t) mod usize_mod = n_elts (contents t) mod usize_mod)%N /\
  ((n_elts (contents t) < usize_mod)%N -> count_n (rt_meta t) = n_elts (contents t)).
Proof. intros free E t H. exact (count_meta_acc t (tree_reached_good t H)). Qed.
Print Assumptions C14_count_meta.

Example C14_case : tree_reached false ex_tc /\ (n_elts (contents ex_tc) < usize_mod)%N /\
  rt_meta ex_tc = Count 6.
Proof. split; [exact ex_tc_reached|]. split; reflexivity. Qed.

(** C15. Names metadata. *)
Theorem C15_names_meta : forall free (E : Type) (t : raz_tree E names), tree_reached free t ->
  (forall n, In n (names_keys (rt_meta t)) <-> In n (point_names (contents t))) /\
  NoDup (names_keys (rt_meta t)).
Proof.
  intros free E t H. exact (conj (names_meta_acc t (tree_reached_good t H)) (names_meta_nodup t (tree_reached_good t H))).
Qed.
Print Assumptions C15_names_meta.

Example C15_case : tree_reached false ex_tn /\
  point_names (contents ex_tn) = [in_tree nm_a; in_tree nm_b] /\ length (names_keys (rt_meta ex_tn)) = 2.
Proof. split; [exact ex_tn_reached|]. split; reflexivity. Qed.

(** C16. Focus by name. *)
Theorem C16_focus_by_name : forall free (E : Type) (t : raz_tree E names) n, tree_reached free t ->
  count_occ name_eq_dec (point_names (contents t)) n = 1 ->
  exists z p lev q, contents t = p ++ Mark lev (Some n) :: q /\
    rt_focus t (PCenter n) = Ok (Some z) /\ session z (sz_at p (Mark lev (Some n) :: q)).
Proof. intros free E t n. exact (reached_focus_name free t n). Qed.
Print Assumptions C16_focus_by_name.

Theorem C16_absent_name : forall free (E : Type) (t : raz_tree E names) n, tree_reached free t ->
  ~ In n (point_names (contents t)) -> contents t <> [] ->
  rt_focus t (PCenter n) =
    (if is_nil (marks (contents t)) then Panic "There are no names in this region" else Ok None).
Proof. intros free E t n H. exact (focus_name_absent t n (tree_reached_good t H)). Qed.
Print Assumptions C16_absent_name.

(** With the name at two archive points the focus can land at a third one, which
    does not carry it. *)
Theorem C16_duplicate_name_refuted : exists (t : raz_tree nat names) n z p q,
  tree_reached false t /\ count_occ name_eq_dec (point_names (contents t)) n = 2 /\
  rt_focus t (PCenter n) = Ok (Some z) /\
  contents t = p ++ Mark 3%N None :: q /\
  (do ' (a, _) <- pop_left z; Ok a) = Ok (match rev p with Elt e :: _ => Some e | _ => None end) /\
  (do ' (b, _) <- pop_right z; Ok b) = Ok (match q with Elt e :: _ => Some e | _ => None end) /\
  elts p = [1; 2] /\ elts q = [3; 4].
Proof.
  exists dup_tn, (in_tree nm_a). eexists. exists (firstn 3 (contents dup_tn)), (skipn 4 (contents dup_tn)).
  split; [exact dup_tn_reached|]. split; [vm_compute; reflexivity|]. split; [vm_compute; reflexivity|].
  split; [vm_compute; reflexivity|].
  split; [vm_compute; reflexivity|]. split; [vm_compute; reflexivity|]. split; vm_compute; reflexivity.
Qed.
Print Assumptions C16_duplicate_name_refuted.

Example C16_case : tree_reached false ex_tn /\
  count_occ name_eq_dec (point_names (contents ex_tn)) (in_tree nm_b) = 1 /\
  ~ In nm_b (point_names (contents ex_tn)) /\ contents ex_tn <> [] /\
  (do o <- rt_focus ex_tn (PCenter (in_tree nm_b) : @Index nat names _);
   match o with
   | Some z => do ' (a, _) <- pop_left z; do ' (b, _) <- pop_right z; Ok (a, b)
   | None => Panic "none"
   end) = Ok (Some 5, Some 6).
Proof.
  split; [exact ex_tn_reached|]. split; [vm_compute; reflexivity|].
  split; [vm_compute; intros [X|[X|[]]]; discriminate|]. split; [discriminate|]. vm_compute. reflexivity.
Qed.

(** C17. The ends. *)
Theorem C17_unit_ends : forall free E (t : raz_tree E unit), tree_reached free t ->
  (exists z, rt_focus t PLeft = Ok (Some z) /\ session z (sz_at [] (contents t))) /\
  (exists z, rt_focus t PRight = Ok (Some z) /\ session z (sz_at (contents t) [])) /\
  (contents t <> [] -> forall u, rt_focus t (PCenter u) = Panic "Invalid position").
Proof. exact unit_ends. Qed.
Print Assumptions C17_unit_ends.

Theorem C17_names_ends : forall free E (t : raz_tree E names), tree_reached free t ->
  (exists z, rt_focus t PLeft = Ok (Some z) /\ session z (sz_at [] (contents t))) /\
  (exists z, rt_focus t PRight = Ok (Some z) /\ session z (sz_at (contents t) [])).
Proof. exact names_ends. Qed.
Print Assumptions C17_names_ends.

Example C17_case : tree_reached false ex_tu /\ contents ex_tu <> [] /\
  (do o <- rt_focus ex_tu (PRight : @Index nat unit _);
   match o with Some z => peek_left z | None => Panic "none" end) = Ok (Some 6).
Proof. split; [exact ex_tu_reached|]. split; [discriminate|]. vm_compute. reflexivity. Qed.
