(** * Experiments of tree_to_list over stores of named cells (C120). *)

From Verif Require Import Base Spec SpecRaz LevelTreeModel TreeCursorModel RazMetaModel RazModel RazView RazScripts StackModel AStackModel AccumModel AccumScripts AccumProofs
  LevelGenModel EvalModel EvalSpec EvalScripts ExampleModel ExampleProofs ActionModel ActionSpec MemoModel StoreModel StoreSpec StoreScripts IncModel ExpStoreModel ExpStoreSpec
  ListIncModel ListIncSpec ListIncProofs ListExpModel ListExpProofs EvalCases PropTokenInc.

(** ** C120: an experiment of tree_to_list never panics; its [i]-th answer reads, in the cells
    left by that run, as an accumulator whose pops give the elements after [i] edits from the
    last to the first; the harness writes only its own cells, and the computation only cells
    of its namespace *)
Theorem C120_list : forall (E G S : Type) (CG : Coord E G) (WS : WordRng S) (eqD : forall x y : tree_data E count, {x = y} + {x <> y})
    (eqE : forall x y : E, {x = y} + {x <> y}) (q p : list name) size dg ng changes o (coord : G) (rng : S),
  fits size dg ng changes o ->
  exists k0, forall k st cs hist tab, k0 <= k -> w_ran (to_list_inc (Nsp := p) eqD eqE) hist tab ->
  exists x, w_test (to_list_inc (Nsp := p) eqD eqE k) (sv_inc_init (Nsp := q) k size dg ng coord) (siraz_editor (Nsp := q) k o) changes rng st cs tab = Ok x /\
    length (wt_answers x) = Datatypes.S (N.to_nat changes) /\
    (forall i y cs', nth_error (wt_answers x) i = Some (y, cs') -> exists xs g l,
      edited gen_elt gen_usize size coord o i = Some (xs, g) /\ list_reads cs' y l /\ answers_as (list_iface E) (fun _ => True) l (rev xs)) /\
    (forall b, fst b <> q \/ ~ harness_name (name_bound size dg ng changes o) (snd b) -> wt_store x b = st b) /\
    forall b, fst b <> p -> wt_cells x b = cs b.
Proof.
  intros E G S CG WS eqD eqE q p size dg ng changes o coord rng F.
  destruct (list_experiment eqD q p (to_list_inc (Nsp := p) eqD eqE) list_reads (to_list (list_iface E)) (next_to_list (Nsp := p) eqD eqE false) size dg ng changes o coord rng F) as [k0 K0].
  exists k0. intros k st cs hist tab Hk Rn. destruct (K0 k st cs hist tab Hk Rn) as (x & X & L & A & Fr). exists x. split; [exact X|]. split; [exact L|].
  split; [|exact Fr]. intros i y cs' Ny. destruct (A i y cs' Ny) as (xs & g & t & Ed & Re & <- & Rd). eexists _, g, _. split; [exact Ed|]. split; [exact Rd|].
  exact (to_list_reached false _ _ t Re (list_lifo E) (fun _ _ => I)).
Qed.
Print Assumptions C120_list.

Theorem C120_vec_list : forall (E G S : Type) (CG : Coord E G) (WS : WordRng S) (eqD : forall x y : tree_data E count, {x = y} + {x <> y})
    (eqE : forall x y : E, {x = y} + {x <> y}) (q p : list name) size dg ng changes o (coord : G) (rng : S),
  fits size dg ng changes o ->
  exists k0, forall k st cs hist tab, k0 <= k -> w_ran (to_vlist_inc (Nsp := p) eqD eqE) hist tab ->
  exists x, w_test (to_vlist_inc (Nsp := p) eqD eqE k) (sv_inc_init (Nsp := q) k size dg ng coord) (siraz_editor (Nsp := q) k o) changes rng st cs tab = Ok x /\
    length (wt_answers x) = Datatypes.S (N.to_nat changes) /\
    (forall i y cs', nth_error (wt_answers x) i = Some (y, cs') -> exists xs g l,
      edited gen_elt gen_usize size coord o i = Some (xs, g) /\ vlist_reads cs' y l /\ answers_as (vl_iface E) (fun _ => True) l (rev xs)) /\
    (forall b, fst b <> q \/ ~ harness_name (name_bound size dg ng changes o) (snd b) -> wt_store x b = st b) /\
    forall b, fst b <> p -> wt_cells x b = cs b.
Proof.
  intros E G S CG WS eqD eqE q p size dg ng changes o coord rng F.
  destruct (list_experiment eqD q p (to_vlist_inc (Nsp := p) eqD eqE) vlist_reads (to_list (vl_iface E)) (next_to_vlist (Nsp := p) eqD eqE false) size dg ng changes o coord rng F) as [k0 K0].
  exists k0. intros k st cs hist tab Hk Rn. destruct (K0 k st cs hist tab Hk Rn) as (x & X & L & A & Fr). exists x. split; [exact X|]. split; [exact L|].
  split; [|exact Fr]. intros i y cs' Ny. destruct (A i y cs' Ny) as (xs & g & t & Ed & Re & <- & Rd). eexists _, g, _. split; [exact Ed|]. split; [exact Rd|].
  exact (to_list_reached false _ _ t Re (vl_lifo E) (fun _ _ => I)).
Qed.
Print Assumptions C120_vec_list.

(** Into archive stacks that keep the levels, and that drop them. *)
Theorem C120_stack : forall (E G S : Type) (CG : Coord E G) (WS : WordRng S) (eqD : forall x y : tree_data E count, {x = y} + {x <> y})
    (eqE : forall x y : E, {x = y} + {x <> y}) (q p : list name) size dg ng changes o (coord : G) (rng : S),
  fits size dg ng changes o ->
  exists k0, forall k st cs hist tab, k0 <= k -> w_ran (to_stack_inc (Nsp := p) eqD eqE N.eq_dec (fun l => l)) hist tab ->
  exists x, w_test (to_stack_inc (Nsp := p) eqD eqE N.eq_dec (fun l => l) k) (sv_inc_init (Nsp := q) k size dg ng coord) (siraz_editor (Nsp := q) k o) changes rng st cs tab = Ok x /\
    length (wt_answers x) = Datatypes.S (N.to_nat changes) /\
    (forall i y cs', nth_error (wt_answers x) i = Some (y, cs') -> exists xs g l,
      edited gen_elt gen_usize size coord o i = Some (xs, g) /\ astack_reads cs' y l /\ answers_as (astack_iface E) (fun _ => True) l (rev xs)) /\
    (forall b, fst b <> q \/ ~ harness_name (name_bound size dg ng changes o) (snd b) -> wt_store x b = st b) /\
    forall b, fst b <> p -> wt_cells x b = cs b.
Proof.
  intros E G S CG WS eqD eqE q p size dg ng changes o coord rng F.
  destruct (list_experiment eqD q p (to_stack_inc (Nsp := p) eqD eqE N.eq_dec (fun l => l)) astack_reads (to_list (astack_iface E)) (next_to_stack (Nsp := p) eqD eqE N.eq_dec (fun l => l) false) size dg ng changes o coord rng F) as [k0 K0].
  exists k0. intros k st cs hist tab Hk Rn. destruct (K0 k st cs hist tab Hk Rn) as (x & X & L & A & Fr). exists x. split; [exact X|]. split; [exact L|].
  split; [|exact Fr]. intros i y cs' Ny. destruct (A i y cs' Ny) as (xs & g & t & Ed & Re & <- & Rd). eexists _, g, _. split; [exact Ed|]. split; [exact Rd|].
  exact (to_list_reached false _ _ t Re (as_lifo E) (fun _ _ => I)).
Qed.
Print Assumptions C120_stack.

Theorem C120_plain_stack : forall (E G S : Type) (CG : Coord E G) (WS : WordRng S) (eqD : forall x y : tree_data E count, {x = y} + {x <> y})
    (eqE : forall x y : E, {x = y} + {x <> y})
    (eqU : forall x y : unit, {x = y} + {x <> y}) (q p : list name) size dg ng changes o (coord : G) (rng : S),
  fits size dg ng changes o ->
  exists k0, forall k st cs hist tab, k0 <= k -> w_ran (to_stack_inc (Nsp := p) eqD eqE eqU (fun _ => tt)) hist tab ->
  exists x, w_test (to_stack_inc (Nsp := p) eqD eqE eqU (fun _ => tt) k) (sv_inc_init (Nsp := q) k size dg ng coord) (siraz_editor (Nsp := q) k o) changes rng st cs tab = Ok x /\
    length (wt_answers x) = Datatypes.S (N.to_nat changes) /\
    (forall i y cs', nth_error (wt_answers x) i = Some (y, cs') -> exists xs g l,
      edited gen_elt gen_usize size coord o i = Some (xs, g) /\ astack_reads cs' y l /\ answers_as (astack_unit_iface E) (fun _ => True) l (rev xs)) /\
    (forall b, fst b <> q \/ ~ harness_name (name_bound size dg ng changes o) (snd b) -> wt_store x b = st b) /\
    forall b, fst b <> p -> wt_cells x b = cs b.
Proof.
  intros E G S CG WS eqD eqE eqU q p size dg ng changes o coord rng F.
  destruct (list_experiment eqD q p (to_stack_inc (Nsp := p) eqD eqE eqU (fun _ => tt)) astack_reads (to_list (astack_unit_iface E)) (next_to_stack (Nsp := p) eqD eqE eqU (fun _ => tt) false) size dg ng changes o coord rng F) as [k0 K0].
  exists k0. intros k st cs hist tab Hk Rn. destruct (K0 k st cs hist tab Hk Rn) as (x & X & L & A & Fr). exists x. split; [exact X|]. split; [exact L|].
  split; [|exact Fr]. intros i y cs' Ny. destruct (A i y cs' Ny) as (xs & g & t & Ed & Re & <- & Rd). eexists _, g, _. split; [exact Ed|]. split; [exact Rd|].
  exact (to_list_reached false _ _ t Re (as_unit_lifo E) (fun _ _ => I)).
Qed.
Print Assumptions C120_plain_stack.

(** ** Examples *)
#[local] Open Scope N_scope.
Definition HARNESS := [NStr "harness"].
Definition LISTS := [NStr "to_list"].
(** The elements 5, 6, ... ; 10 of them, then twice 3 more inserted somewhere. *)
Definition listing (k : nat) :=
  w_test (to_list_inc (Nsp := LISTS) eqCN N.eq_dec k) (sv_inc_init (CG := demo_coord) (WS := demo_rng) (Nsp := HARNESS) k 10 2 1 5)
    (siraz_editor (CG := demo_coord) (WS := demo_rng) (Nsp := HARNESS) k (HInsert 3)) 2 9 (fun _ => None) (fun _ => None) no_wentries.
Fixpoint popped (k : nat) (cs : wcells (slist N)) (l : slist N) : list N :=
  match k, l with
  | S k, SLCons e l => e :: popped k cs l
  | S k, SLName _ l => popped k cs l
  | S k, SLArt a => match cs a with Some l => popped k cs l | None => [] end
  | _, _ => []
  end.
Definition plain (i : nat) : option (list N) :=
  match edited (@gen_elt _ _ demo_coord) (@gen_usize _ _ demo_coord) 10 5 (HInsert 3) i with Some (xs, _) => Some (rev xs) | None => None end.
Example C120_case : fits 10 2 1 2 (HInsert 3) /\ w_ran (to_list_inc (Nsp := LISTS) eqCN N.eq_dec) [] no_wentries /\
  map plain [0; 1; 2]%nat = [Some [14; 13; 12; 11; 10; 9; 8; 7; 6; 5]; Some [14; 13; 12; 11; 10; 18; 17; 16; 9; 8; 7; 6; 5];
    Some [14; 13; 12; 11; 10; 18; 17; 22; 21; 20; 16; 9; 8; 7; 6; 5]] /\
  match listing 100 with Ok x => Some (map (fun p => popped 60 (snd p) (fst p)) (wt_answers x), wt_calls x) | _ => None end =
    Some ([[14; 13; 12; 11; 10; 9; 8; 7; 6; 5]; [14; 13; 12; 11; 10; 18; 17; 16; 9; 8; 7; 6; 5];
      [14; 13; 12; 11; 10; 18; 17; 22; 21; 20; 16; 9; 8; 7; 6; 5]], [9; 6; 8]%nat).
Proof.
  split; [unfold fits; vm_compute; repeat split; discriminate|]. split; [constructor|]. split; vm_compute; reflexivity.
Qed.
