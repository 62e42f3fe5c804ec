(** * The experiment of the adder over stores of named cells (C119). *)

From Verif Require Import Base Spec SpecRaz RazFrom LevelTreeModel TreeCursorModel RazMetaModel RazModel RazView StackModel AStackModel AccumModel AccumScripts AccumProofs LevelGenModel
  EvalModel EvalSpec EvalScripts ExampleModel ExampleSpec ActionModel ActionSpec MemoModel StoreModel StoreSpec StoreScripts IncModel IncFromModel ExpStoreModel ExpStoreSpec
  ListIncModel ListIncSpec TokenIncModel ParseIncModel AdderIncModel AdderIncSpec AdderExpModel AdderExpProofs PropTokenInc PropParseInc PropAdderInc.

(** ** C119: an experiment of the adder never panics; its [i]-th answer reads, in the memory
    left by that run, as a stack whose pops give what the adder gives for the plain list of
    characters after [i] edits; and the harness writes only its own cells *)
Theorem C119_adder_experiment : forall (M' G S : Type) (RM' : RazMeta token M') (CG : Coord N G) (WS : WordRng S)
    (eqK : forall x y : token, {x = y} + {x <> y}) (eqD : forall x y : tree_data N count, {x = y} + {x <> y})
    (eqD' : forall x y : tree_data token M', {x = y} + {x <> y}) (q q1 q2 q3 : list name) size dg ng changes o (coord : G) (rng : S),
  fits size dg ng changes o -> (forall g : G, in_lang (fst (gen_elt g))) ->
  exists k0, forall k st m, k0 <= k -> adder_ran eqK eqD eqD' q1 q2 q3 m ->
  exists x, adder_test eqK eqD eqD' q1 q2 q3 k (sv_inc_init (Nsp := q) k size dg ng coord) (siraz_editor (Nsp := q) k o) changes rng st m = Ok x /\
    length (tr_answers x) = Datatypes.S (N.to_nat changes) /\
    (forall i y m', nth_error (tr_answers x) i = Some (y, m') -> exists xs g v a,
      edited gen_elt gen_usize size coord o i = Some (xs, g) /\ adder_vec xs = Ok v /\ astack_reads (m_numbers m') y a /\
      answers_as (astack_iface N) (fun lv => lv < u32_max)%N a (rev v)) /\
    forall b, fst b <> q \/ ~ harness_name (name_bound size dg ng changes o) (snd b) -> tr_store x b = st b.
Proof. intros M' G S RM' CG WS eqK eqD eqD' q q1 q2 q3. exact (adder_experiment eqK eqD eqD' q q1 q2 q3). Qed.
Print Assumptions C119_adder_experiment.

(** ** Examples *)
#[local] Open Scope N_scope.
(** Texts of digits, with a plus sign or a comma now and then. *)
Definition text_coord : Coord N N :=
  {| gen_elt g := ((if g mod 5 =? 3 then 43 else if g mod 7 =? 2 then 44 else 48 + g mod 10), g + 1); gen_usize g := (7 * g, g + 1) |}.
Definition text_rng : WordRng N := {| next_word s := (3 * s, s + 5) |}.
Definition HARNESS := [NStr "harness"].
Definition trying (k : nat) (m : amem) : res (trial count count N N) :=
  adder_test eqTk eqCN eqCT TOKENS TOTREE NUMS k (sv_inc_init (CG := text_coord) (WS := text_rng) (Nsp := HARNESS) k 12 2 1 4)
    (siraz_editor (CG := text_coord) (WS := text_rng) (Nsp := HARNESS) k (HInsert 3)) 2 9 (fun _ => None) m.
(** All numbers of the stack, from the newest chunk to the oldest. *)
Fixpoint chunks (k : nat) (m : amem) (h : option (shead (level * list N))) : list (list N) :=
  match k, h with
  | S k, Some (HPut (_, v) n) => v :: chunks k m n
  | S k, Some (HCell a) => match m_numbers m a with Some ((_, v), n) => v :: chunks k m n | None => [] end
  | _, _ => []
  end.
Definition shown (r : res (trial count count N N)) : option (list (list N)) :=
  match r with Ok x => Some (map (fun p => concat (map (@rev N) (sa_current (fst p) :: chunks 20 (snd p) (sa_archived (fst p))))) (tr_answers x)) | _ => None end.
Definition plain (i : nat) : res (list N) :=
  match edited (@gen_elt _ _ text_coord) (@gen_usize _ _ text_coord) 12 4 (HInsert 3) i with Some (xs, _) => adder_vec xs | None => Fuel end.
(** 12 characters, then 15, then 18; and the calls that the stages enter for each. *)
Example C119_case : fits 12 2 1 2 (HInsert 3) /\ (forall g, in_lang (fst (@gen_elt _ _ text_coord g))) /\
  adder_ran eqTk eqCN eqCT TOKENS TOTREE NUMS fresh /\
  map plain [0; 1; 2]%nat = [Ok [4579; 45]; Ok [45698; 45]; Ok [456804; 45]] /\
  shown (trying 100 fresh) = Some [[45; 4579]; [45; 45698]; [45; 456804]] /\
  match trying 100 fresh with Ok x => tr_calls x | _ => [] end = [(11, 2, 5); (8, 3, 6); (9, 5, 10)]%nat.
Proof.
  split; [unfold fits; vm_compute; repeat split; discriminate|]. split.
  { intros g. unfold gen_elt, text_coord. cbn [fst]. destruct (g mod 5 =? 3); [right; left; reflexivity|]. destruct (g mod 7 =? 2); [right; right; reflexivity|]. left.
    pose proof (N.mod_lt g 10 ltac:(discriminate)) as L. unfold is_digit. cbv iota. generalize dependent (g mod 10). intros d L. apply andb_true_intro. split; apply N.leb_le; lia. }
  split; [apply adder_none; reflexivity|]. split; [vm_compute; reflexivity|].
  split; vm_compute; reflexivity.
Qed.
