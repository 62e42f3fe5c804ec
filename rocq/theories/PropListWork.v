(** * Work of the experiments of tree_to_list over stores of named cells (C121). *)

From Verif Require Import Base Spec SpecRaz LevelTreeModel TreeCursorModel RazMetaModel RazModel RazView RazScripts StackModel AStackModel AccumModel AccumScripts AccumProofs
  LevelGenModel EvalModel EvalSpec EvalScripts ExampleModel ExampleProofs ActionModel ActionSpec MemoModel MemoSpec StoreModel StoreSpec StoreScripts IncModel ExpStoreModel ExpStoreSpec
  ListIncModel ListIncSpec ListIncProofs ListIncCost ListExpModel ListExpProofs EvalCases PropTokenInc PropListExp.

(** ** C121: after an edit, the fold enters at most one call, and two for each node that the
    edit can be seen from: those of the batch, those on the right edge of what is before it, and
    at most 64 on the left edge of what is after it *)
Theorem C121_list : forall (E G S : Type) (CG : Coord E G) (WS : WordRng S) (eqD : forall x y : tree_data E count, {x = y} + {x <> y})
    (eqE : forall x y : E, {x = y} + {x <> y}) (q p : list name) size dg changes o (coord : G) (rng : S),
  fits size dg 1 changes o ->
  exists k0, forall k st cs, k0 <= k ->
  exists x, w_test (to_list_inc (Nsp := p) eqD eqE k) (sv_inc_init (Nsp := q) k size dg 1 coord) (siraz_editor (Nsp := q) k o) changes rng st cs no_wentries = Ok x /\
  length (wt_calls x) = Datatypes.S (N.to_nat changes) /\
  forall i n, nth_error (wt_calls x) (Datatypes.S i) = Some n ->
  exists c c' t t' pre new post,
    nth_error (wt_given x) i = Some c /\ nth_error (wt_given x) (Datatypes.S i) = Some c' /\
    tree_reads (fst c) (snd c) t /\ tree_reads (fst c') (snd c') t' /\
    contents t = pre ++ post /\ contents t' = pre ++ new ++ post /\
    (N.of_nat (length (elts new)) = hop_batch o /\ N.of_nat (length (marks new)) <= hop_batch o / dg + 1)%N /\
    seen_from_left 0%N post <= 64 /\
    n <= 1 + 2 * (seen_from_right pre + length (marks new) + seen_from_left 0%N post).
Proof.
  intros E G S CG WS eqD eqE q p size dg changes o coord rng F.
  refine (list_work eqD q p (to_list_inc (Nsp := p) eqD eqE) list_reads (to_list (list_iface E)) (next_to_list (Nsp := p) eqD eqE false) _ size dg changes o coord rng F).
  intros t t' older pre mid mid' post Re Op D D'. exact (again_to_list (Nsp := p) eqD eqE q t t' older pre mid mid' post Re Op D D').
Qed.
Print Assumptions C121_list.

Theorem C121_vec_list : forall (E G S : Type) (CG : Coord E G) (WS : WordRng S) (eqD : forall x y : tree_data E count, {x = y} + {x <> y})
    (eqE : forall x y : E, {x = y} + {x <> y}) (q p : list name) size dg changes o (coord : G) (rng : S),
  fits size dg 1 changes o ->
  exists k0, forall k st cs, k0 <= k ->
  exists x, w_test (to_vlist_inc (Nsp := p) eqD eqE k) (sv_inc_init (Nsp := q) k size dg 1 coord) (siraz_editor (Nsp := q) k o) changes rng st cs no_wentries = Ok x /\
  length (wt_calls x) = Datatypes.S (N.to_nat changes) /\
  forall i n, nth_error (wt_calls x) (Datatypes.S i) = Some n ->
  exists c c' t t' pre new post,
    nth_error (wt_given x) i = Some c /\ nth_error (wt_given x) (Datatypes.S i) = Some c' /\
    tree_reads (fst c) (snd c) t /\ tree_reads (fst c') (snd c') t' /\
    contents t = pre ++ post /\ contents t' = pre ++ new ++ post /\
    (N.of_nat (length (elts new)) = hop_batch o /\ N.of_nat (length (marks new)) <= hop_batch o / dg + 1)%N /\
    seen_from_left 0%N post <= 64 /\
    n <= 1 + 2 * (seen_from_right pre + length (marks new) + seen_from_left 0%N post).
Proof.
  intros E G S CG WS eqD eqE q p size dg changes o coord rng F.
  refine (list_work eqD q p (to_vlist_inc (Nsp := p) eqD eqE) vlist_reads (to_list (vl_iface E)) (next_to_vlist (Nsp := p) eqD eqE false) _ size dg changes o coord rng F).
  intros t t' older pre mid mid' post Re Op D D'. exact (again_to_vlist (Nsp := p) eqD eqE q t t' older pre mid mid' post Re Op D D').
Qed.
Print Assumptions C121_vec_list.

(** Into archive stacks that keep the levels, and that drop them. *)
Theorem C121_stack : forall (E G S : Type) (CG : Coord E G) (WS : WordRng S) (eqD : forall x y : tree_data E count, {x = y} + {x <> y})
    (eqE : forall x y : E, {x = y} + {x <> y}) (q p : list name) size dg changes o (coord : G) (rng : S),
  fits size dg 1 changes o ->
  exists k0, forall k st cs, k0 <= k ->
  exists x, w_test (to_stack_inc (Nsp := p) eqD eqE N.eq_dec (fun l => l) k) (sv_inc_init (Nsp := q) k size dg 1 coord) (siraz_editor (Nsp := q) k o) changes rng st cs no_wentries = Ok x /\
  length (wt_calls x) = Datatypes.S (N.to_nat changes) /\
  forall i n, nth_error (wt_calls x) (Datatypes.S i) = Some n ->
  exists c c' t t' pre new post,
    nth_error (wt_given x) i = Some c /\ nth_error (wt_given x) (Datatypes.S i) = Some c' /\
    tree_reads (fst c) (snd c) t /\ tree_reads (fst c') (snd c') t' /\
    contents t = pre ++ post /\ contents t' = pre ++ new ++ post /\
    (N.of_nat (length (elts new)) = hop_batch o /\ N.of_nat (length (marks new)) <= hop_batch o / dg + 1)%N /\
    seen_from_left 0%N post <= 64 /\
    n <= 1 + 2 * (seen_from_right pre + length (marks new) + seen_from_left 0%N post).
Proof.
  intros E G S CG WS eqD eqE q p size dg changes o coord rng F.
  refine (list_work eqD q p (to_stack_inc (Nsp := p) eqD eqE N.eq_dec (fun l => l)) astack_reads (to_list (astack_iface E)) (next_to_stack (Nsp := p) eqD eqE N.eq_dec (fun l => l) false) _ size dg changes o coord rng F).
  intros t t' older pre mid mid' post Re Op D D'. exact (again_to_stack (Nsp := p) eqD eqE q t t' older pre mid mid' post Re Op D D' N.eq_dec (fun l => l)).
Qed.
Print Assumptions C121_stack.

Theorem C121_plain_stack : forall (E G S : Type) (CG : Coord E G) (WS : WordRng S) (eqD : forall x y : tree_data E count, {x = y} + {x <> y})
    (eqE : forall x y : E, {x = y} + {x <> y})
    (eqU : forall x y : unit, {x = y} + {x <> y}) (q p : list name) size dg changes o (coord : G) (rng : S),
  fits size dg 1 changes o ->
  exists k0, forall k st cs, k0 <= k ->
  exists x, w_test (to_stack_inc (Nsp := p) eqD eqE eqU (fun _ => tt) k) (sv_inc_init (Nsp := q) k size dg 1 coord) (siraz_editor (Nsp := q) k o) changes rng st cs no_wentries = Ok x /\
  length (wt_calls x) = Datatypes.S (N.to_nat changes) /\
  forall i n, nth_error (wt_calls x) (Datatypes.S i) = Some n ->
  exists c c' t t' pre new post,
    nth_error (wt_given x) i = Some c /\ nth_error (wt_given x) (Datatypes.S i) = Some c' /\
    tree_reads (fst c) (snd c) t /\ tree_reads (fst c') (snd c') t' /\
    contents t = pre ++ post /\ contents t' = pre ++ new ++ post /\
    (N.of_nat (length (elts new)) = hop_batch o /\ N.of_nat (length (marks new)) <= hop_batch o / dg + 1)%N /\
    seen_from_left 0%N post <= 64 /\
    n <= 1 + 2 * (seen_from_right pre + length (marks new) + seen_from_left 0%N post).
Proof.
  intros E G S CG WS eqD eqE eqU q p size dg changes o coord rng F.
  refine (list_work eqD q p (to_stack_inc (Nsp := p) eqD eqE eqU (fun _ => tt)) astack_reads (to_list (astack_unit_iface E)) (next_to_stack (Nsp := p) eqD eqE eqU (fun _ => tt) false) _ size dg changes o coord rng F).
  intros t t' older pre mid mid' post Re Op D D'. exact (again_to_stack (Nsp := p) eqD eqE q t t' older pre mid mid' post Re Op D D' eqU (fun _ => tt)).
Qed.
Print Assumptions C121_plain_stack.

(** ** Examples *)
(** The experiment of [C120_case]: 9 calls at first, then 6 and 8. *)
#[local] Open Scope N_scope.
Definition shown (c : store (level * list N) (tree_data N count) * sraz_tree N count) : list (atom N level) :=
  match srt_tree (snd c) with
  | Some t => match st_read 100 t (fst c) with Ok (t, _) => contents (RazTree (srt_meta (snd c)) (Some t)) | _ => [] end
  | None => []
  end.
Notation at_ m i := (Mark m (Some (NPair (NNum i) (NStr "tree")))).
Definition pre1 := [Elt 5; Elt 6; at_ 1 0; Elt 7; Elt 8; at_ 2 1; Elt 9] : list (atom N level).
Definition new1 := [Elt 16; Elt 17; at_ 2 5; Elt 18] : list (atom N level).
Definition post1 := [Elt 10; at_ 1 2; Elt 11; Elt 12; at_ 3 3; Elt 13; Elt 14] : list (atom N level).
Definition pre2 := pre1 ++ [Elt 16].
Definition new2 := [Elt 20; at_ 5 7; Elt 21; Elt 22; at_ 1 8] : list (atom N level).
Definition post2 := [Elt 17; at_ 2 5; Elt 18] ++ post1.
Example C121_case : fits 10 2 1 2 (HInsert 3) /\
  match listing 100 with Ok x => Some (map shown (wt_given x), wt_calls x) | _ => None end =
    Some ([pre1 ++ post1; pre1 ++ new1 ++ post1; pre2 ++ new2 ++ post2], [9; 6; 8]%nat) /\
  pre2 ++ post2 = pre1 ++ new1 ++ post1 /\
  (1 + 2 * (seen_from_right pre1 + length (marks new1) + seen_from_left 0%N post1) = 9)%nat /\
  (1 + 2 * (seen_from_right pre2 + length (marks new2) + seen_from_left 0%N post2) = 11)%nat.
Proof.
  split; [unfold fits; vm_compute; repeat split; discriminate|]. repeat (split; [vm_compute; reflexivity|]). vm_compute; reflexivity.
Qed.
