(** * The memoised parser of the adder over the store. *)

From Verif Require Import Base Spec SpecRaz LevelTreeModel TreeCursorModel RazMetaModel RazModel RazView RazScripts RazReach RazExamples MemoModel MemoSpec MemoHistory
  StackModel AStackModel AccumModel AccumScripts AccumProofs ExampleModel ExampleSpec ExampleProofs AdderProofs StoreModel StoreSpec StoreScripts StoreProofs IncModel IncSpec
  ListIncModel ListIncSpec ListIncProofs ParseIncModel ParseIncProofs StoreHistory PropMemo PropInc PropListInc PropTokenInc.

(** ** C117: whatever ran before, the parser leaves in the store the stack, with its archive
    points, that the plain parser makes, of the numbers that evaluating the tokens gives; it
    writes only cells named in the tree *)
Theorem C117_parse : forall (M : Type) (RM : RazMeta token M) (eqD : forall x y : tree_data token M, {x = y} + {x <> y}) (Nsp : here) free (t : raz_tree token M),
  tree_reached free t -> NoDup (node_names t) ->
  exists k0, forall k hist tab st cs h, k0 <= k -> w_ran (parse_inc eqD) hist tab -> tree_reads st h t ->
  exists y cs' tr tab' lg a, parse_inc eqD k h st cs tab = Ok (y, cs', tr, tab', lg) /\ parse_tree (astack_iface N) t = Ok a /\ astack_reads cs' y a /\
    answers_as (astack_iface N) (fun _ => True) a (eval (map tok_of (elts (contents t)))) /\
    forall b, fst b <> path \/ ~ In (snd b) (node_names t) -> cs' b = cs b.
Proof.
  intros M RM eqD Nsp free t Re Nd. destruct (next_parse eqD free t Re Nd) as (k0 & H). exists k0.
  intros k hist tab st cs h Hk Rn Rd. destruct (H k hist tab st cs h Hk Rn Rd) as (y & cs' & tr & tab' & lg & a & H1 & H2 & H3 & H4).
  exists y, cs', tr, tab', lg, a. split; [exact H1|]. split; [exact H2|]. split; [exact H3|]. split; [|exact H4]. exact (parse_reached free t a Re H2).
Qed.
Print Assumptions C117_parse.

(** ** Examples *)
#[local] Open Scope N_scope.
Definition NUMS := [NStr "parse"].
Definition eqCT := td_eq_dec (E := token) (M := count) (fun x y : token => ltac:(decide equality; apply N.eq_dec)) eq_count.
Notation ixT := (@Index token count _).
Notation pstate := (store (level * list token) (tree_data token count) * sraz_tree token count)%type.
Notation pcells := (wcells (body (level * list N))).
Notation pkey := (stree (tree_data token count) * option name * sastack N level)%type.
Notation ptable := (wtab (tree_data token count) (body (level * list N)) pkey (sastack N level)).
Notation pevent := (wevent (level * list token) (tree_data token count) (body (level * list N)) (sraz_tree token count) (sastack N level)).
Definition numbers : nat -> sraz_tree token count -> wm (level * list token) (tree_data token count) (body (level * list N)) pkey (sastack N level) (sastack N level) :=
  parse_inc (Nsp := NUMS) eqCT.
(** 1 2|3|+ 4|+|5|+ 8, and that with 7 after the 3. *)
Definition token_ops (c : list token) : list (zop token) :=
  (map OPushL [Num 1; Num 2] ++ [OArchL 3 (Some (nm_k 1))] ++ map OPushL c ++ [OArchL 1 (Some (nm_k 2))] ++ map OPushL [OpPlus; Num 4] ++ [OArchL 4 (Some (nm_k 3))] ++
   map OPushL [OpPlus] ++ [OArchL 2 (Some (nm_k 4))] ++ map OPushL [Num 5] ++ [OArchL 5 (Some (nm_k 5))] ++ map OPushL [OpPlus; Num 8])%list.
Definition pgo (cs : list (cmd token ixT)) (hs : list (sraz_tree token count)) st : pstate :=
  match s_run (Nsp := HOME) 80 (map VTree hs) cs st with
  | Ok ((_, sp), st') => (st', match last sp VGone with VTree h => h | _ => SRazTree (Count 0) None end)
  | _ => (st, SRazTree (Count 0) None)
  end.
Definition p0 : pstate := pgo (CRaz :: map (CStep 0) (token_ops [Num 3]) ++ [CUnfocus 0])%list [] nix.
Definition p1 : pstate := pgo [CFocus 0 3; CStep 1 (OPushL (Num 7)); CUnfocus 1] [snd p0] (fst p0).
Definition ptree_of (ops : list (zop token)) : raz_tree token count :=
  match zrun raz_new ops with
  | Ok (_, z) => match unfocus z with Ok t => t | _ => RazTree (Count 0) None end
  | _ => RazTree (Count 0) None
  end.
Definition pt0 := Eval vm_compute in ptree_of (token_ops [Num 3]).
Definition pt1 := Eval vm_compute in ptree_of (token_ops [Num 3; Num 7]).
Lemma pts_reached : Forall (fun t => tree_reached false t) [pt1; pt0].
Proof.
  assert (X : forall ops t, forallb (fun o => match o with OArchL l _ => (0 <? l) | OPushL _ => true | _ => false end) ops = true ->
    (exists os z, zrun raz_new ops = Ok (os, z) /\ unfocus z = Ok t) -> tree_reached (E := token) (M := count) false t).
  { intros ops t B (os & z & R & U). eapply TR_unfocus; [|exact U]. eapply zrun_reached; [|apply RR_new|exact R].
    rewrite forallb_forall in B. apply Forall_forall. intros o Ho. specialize (B o Ho).
    destruct o; try discriminate; simpl; auto. apply N.ltb_lt in B. lia. }
  repeat (apply Forall_cons; [|]); try apply Forall_nil.
  - apply (X (token_ops [Num 3; Num 7])); [reflexivity|]. do 2 eexists. split; vm_compute; reflexivity.
  - apply (X (token_ops [Num 3])); [reflexivity|]. do 2 eexists. split; vm_compute; reflexivity.
Qed.
Lemma pts_read : Forall2 (fun c t => tree_reads (fst c) (snd c) t) [p1; p0] [pt1; pt0].
Proof.
  assert (X : forall (st : store (level * list token) (tree_data token count)) h t k,
    match st_read k h st with Ok (t', _) => Some t' | _ => None end = Some t -> reads st h t).
  { intros st h t k H. destruct (st_read k h st) as [[t' st']| |] eqn:Rd; try discriminate. injection H as ->.
    exists k. rewrite Rd. now destruct (read_rep k st h t st' Rd) as [-> _]. }
  repeat (apply Forall2_cons; [split; [vm_compute; reflexivity|apply (X _ _ _ 80%nat); vm_compute; reflexivity]|]). apply Forall2_nil.
Qed.
Definition parsed (x : pstate) (cs : pcells) (tab : ptable) : pevent * ptable :=
  match numbers 80 (snd x) (fst x) cs tab with
  | Ok (y, cs', _, tab', lg) => (WEvent (fst x) cs (snd x) y cs' lg, tab')
  | _ => (WEvent (fst x) cs (snd x) sa_new cs [], tab)
  end.
Fixpoint runs_of (xs : list pstate) : list pevent * ptable :=
  match xs with
  | [] => ([], no_wentries)
  | x :: r =>
      let (h, tab) := runs_of r in
      let (e, tab) := parsed x (match h with e :: _ => w_after e | [] => fun _ => None end) tab in
      (e :: h, tab)
  end.
Fixpoint runs_fine (xs : list pstate) : bool :=
  match xs with
  | [] => true
  | x :: r =>
      runs_fine r &&
      match numbers 80 (snd x) (fst x) (match fst (runs_of r) with e :: _ => w_after e | [] => fun _ => None end) (snd (runs_of r)) with
      | Ok _ => true
      | _ => false
      end
  end.
Lemma parsed_more : forall x cs h tab, (match numbers 80 (snd x) (fst x) cs tab with Ok _ => true | _ => false end) = true ->
  w_ran numbers h tab -> w_ran numbers (fst (parsed x cs tab) :: h) (snd (parsed x cs tab)).
Proof.
  intros x cs h tab G H. unfold parsed. destruct (numbers 80 (snd x) (fst x) cs tab) as [[[[[y cs'] tr] tab'] lg]| |] eqn:Q; try discriminate.
  exact (w_ran_more numbers h tab 80 (fst x) cs (snd x) y cs' tr tab' lg H Q).
Qed.
Lemma parsed_ran : forall xs, runs_fine xs = true -> w_ran numbers (fst (runs_of xs)) (snd (runs_of xs)).
Proof.
  induction xs as [|x xs IH]; [intros _; apply w_ran_none|]. cbn [runs_fine runs_of]. intros H. apply andb_true_iff in H. destruct H as [H1 H2].
  specialize (IH H1). destruct (runs_of xs) as [h tab]. cbn [fst snd] in *. pose proof (parsed_more x _ h tab H2 IH) as R.
  now destruct (parsed x _ tab) as [e tab'].
Qed.
(** Parsing 1 2|3|+ 4|+|5|+ 8, then with 7 after the 3, then that again: the numbers, from the
    top, and how many nodes run. The 7 keeps the plus from reaching the first chunk. *)
Example C117_case : Forall (fun t => tree_reached false t) [pt1; pt0] /\ NoDup (node_names pt1) /\ NoDup (node_names pt0) /\
  Forall2 (fun c t => tree_reads (fst c) (snd c) t) [p1; p0] [pt1; pt0] /\
  runs_fine [p1; p1; p0] = true /\ w_ran numbers (fst (runs_of [p1; p1; p0])) (snd (runs_of [p1; p1; p0])) /\
  map (fun t => eval (map tok_of (elts (contents t)))) [pt1; pt0] = [[8; 19; 2; 1]; [8; 14; 1]] /\
  map (fun e => sa_current (w_result e)) (fst (runs_of [p1; p1; p0])) = [[19; 8]; [19; 8]; [1; 14; 8]] /\
  map (fun e => match sa_archived (w_result e) with Some (HCell a) => w_after e a | _ => None end) (fst (runs_of [p1; p1; p0])) =
    [Some ((3, [1; 2]), None); Some ((3, [1; 2]), None); None] /\
  map (fun e => length (w_entered e)) (fst (runs_of [p1; p1; p0])) = [1; 9; 11]%nat.
Proof.
  split; [exact pts_reached|].
  do 2 (split; [vm_compute; repeat (constructor; [simpl; intuition discriminate|]); constructor|]).
  split; [exact pts_read|]. assert (F : runs_fine [p1; p1; p0] = true) by (vm_compute; reflexivity).
  split; [exact F|]. split; [exact (parsed_ran _ F)|]. do 3 (split; [vm_compute; reflexivity|]). vm_compute. reflexivity.
Qed.
(** Somebody throws the numbers away: the memos of calls that read them do not hold any more. *)
Example C117_case_lost : match numbers 80 (snd p1) (fst p1) (fun _ => None) (snd (runs_of [p1; p0])) with
  | Ok (y, cs, _, _, lg) => sa_current y = [19; 8] /\ length lg = 5%nat /\ match sa_archived y with Some (HCell a) => cs a | _ => None end = Some ((3, [1; 2]), None)
  | _ => False
  end.
Proof. vm_compute. split; [reflexivity|]. split; reflexivity. Qed.
