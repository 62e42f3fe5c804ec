(** * Properties of the code over a mutable store of named cells (C51 to C53). *)

From Verif Require Import Base Spec SpecRaz StackModel AStackModel StackScripts LevelTreeModel TreeCursorModel
  RazMetaModel RazModel TreeSpec RazScripts StoreModel StoreSpec StoreScripts StoreHistory StoreFuel.

(** C51. A stack program without names leaves every store as it was, whatever stacks
    (also named ones) it starts from, ... *)
Theorem C51_unnamed_stack_writes_nothing : forall (T A : Type) (Nsp : here) (cs : list (kcmd T))
    (sp sp' : list (option (shead T))) (st st' : store T A) os,
  flat_map k_names cs = [] -> k_run sp cs st = Ok ((os, sp'), st') -> st' = st.
Proof. intros. eapply k_run_unnamed; eassumption. Qed.
Print Assumptions C51_unnamed_stack_writes_nothing.

(** ... and answers as immutable lists do. *)
Theorem C51_unnamed_stack_is_list : forall (T A : Type) (Nsp : here) (cs : list (kcmd T)) (st : store T A),
  flat_map k_names cs = [] ->
  exists sp', k_run [] cs st = Ok ((fst (kl_run [] cs), sp'), st).
Proof.
  intros T A Nsp cs st N. destruct (k_run_agrees cs st) as (sp' & st' & R & _); [rewrite N; constructor|].
  exists sp'. rewrite R. now rewrite (k_run_unnamed cs _ _ _ _ _ N R).
Qed.
Print Assumptions C51_unnamed_stack_is_list.

(** A Raz program without names may clone anything at any time: it answers as the
    immutable reading does, and no handle into the store, to a tree or to a stack,
    reads differently afterwards. *)
Theorem C51_unnamed_raz_is_persistent : forall (E M : Type) (RM : RazMeta E M) (Nsp : here)
    (cs : list (cmd E Index)) os p',
  p_run [] cs = Ok (os, p') -> flat_map c_names cs = [] ->
  exists k0, forall k st, k0 <= k -> exists sp' st',
    s_run k [] cs st = Ok ((os, sp'), st') /\ (forall a, st' a = st a) /\
    (forall h t, reads st h t -> reads st' h t) /\
    (forall j h l, ss_take j h st = Ok (l, st) -> ss_take j h st' = Ok (l, st')).
Proof. intros. eapply run_unnamed; eassumption. Qed.
Print Assumptions C51_unnamed_raz_is_persistent.

Definition nix {T A} : store T A := fun _ => None.
Notation ixc := (@Index nat count _).

(** Elements 1 2 | 3, archived without names; the tree is cloned, and one of the two is
    focused and edited. *)
Definition unnamed_prog : list (cmd nat ixc) :=
  [CRaz; CStep 0 (OPushL 1); CStep 0 (OArchL 5%N None); CStep 0 (OPushL 2); CStep 0 (OArchL 3%N None);
   CStep 0 (OPushL 3); CUnfocus 0; CClone 1; CFocus 1 1%N; CStep 3 OPopL; CStep 3 OPeekR; CStep 3 (OPushL 9);
   CUnfocus 3; CRead 2; CRead 4].
Example C51_case : flat_map c_names unnamed_prog = [] /\
  exists os p1 p2 st, p_run [] unnamed_prog = Ok (os, p1) /\ s_run (Nsp := []) 50 [] unnamed_prog nix = Ok ((os, p2), st) /\
    nth_error os 9 = Some (CZ (OutElt (Some 1))) /\
    nth_error os 13 = Some (CTree (Count 3%N)
      (Some (Node 5%N None (Branch (Count 1%N) (Count 2%N)) (Some (Node 0%N None (Leaf [1]) None None))
        (Some (Node 3%N None (Branch (Count 1%N) (Count 1%N)) (Some (Node 0%N None (Leaf [2]) None None))
                 (Some (Node 0%N None (Leaf [3]) None None))))))) /\
    nth_error os 14 = Some (CTree (Count 3%N)
      (Some (Node 5%N None (Branch (Count 1%N) (Count 2%N)) (Some (Node 0%N None (Leaf [9]) None None))
        (Some (Node 3%N None (Branch (Count 1%N) (Count 1%N)) (Some (Node 0%N None (Leaf [2]) None None))
                 (Some (Node 0%N None (Leaf [3]) None None))))))).
Proof.
  split; [reflexivity|]. do 4 eexists. split; [vm_compute; reflexivity|]. split; [vm_compute; reflexivity|].
  repeat split; vm_compute; reflexivity.
Qed.
Example C51_case_stack :
  let cs := [KNew; KPush 0 None 1; KPush 1 None 2; KPush 1 None 3; KPull 3; KTake 5 2; KTake 5 3; KTake 5 4] in
  flat_map k_names cs = [] /\
  fst (kl_run [] cs) = [KDone; KDone; KDone; KDone; KDone; KList [2; 1]; KList [3; 1]; KList [1]].
Proof. split; reflexivity. Qed.

(** C52. Pushing with a name in use redirects the older handle: it now shows the new
    element and the new tail, whatever was pushed, on whatever stacks. *)
Theorem C52_push_overwrites : forall (T A : Type) (Nsp : here) (st : store T A) n (a b : T) (s t : option (shead T)),
  exists h st1 st2, ss_push s (Some n) a st = Ok (h, st1) /\ ss_push t (Some n) b st1 = Ok (h, st2) /\
    ss_peek h st1 = Ok (Some a, st1) /\ ss_peek h st2 = Ok (Some b, st2) /\
    ss_pull h st1 = Ok (Some s, st1) /\ ss_pull h st2 = Ok (Some t, st2).
Proof. intros. apply push_twice. Qed.
Print Assumptions C52_push_overwrites.

(** Pushing onto a stack the name of its own head ties the stack to itself: however
    many elements are asked for, iteration yields that many. *)
Theorem C52_push_onto_itself : forall (T A : Type) (Nsp : here) (st : store T A) n (a b : T) (s : option (shead T)),
  exists h st1 h2 st2, ss_push s (Some n) a st = Ok (h, st1) /\ ss_push h (Some n) b st1 = Ok (h2, st2) /\
    forall k, ss_take k h2 st2 = Ok (repeat b k, st2).
Proof. intros. apply push_onto_itself. Qed.
Print Assumptions C52_push_onto_itself.

(** So stacks with names do not answer as lists, even from the empty store, ... *)
Theorem C52_stack_persistence_refuted : exists (cs : list (kcmd nat)) os sp st,
  k_run (Nsp := []) [] cs (nix : store nat nat) = Ok ((os, sp), st) /\ os <> fst (kl_run [] cs).
Proof.
  exists [KNew; KPush 0 (Some NUnit) 1; KPush 0 (Some NUnit) 2; KPeek 1].
  do 3 eexists. split; [vm_compute; reflexivity|]. vm_compute. discriminate.
Qed.
Print Assumptions C52_stack_persistence_refuted.

(** ... and a Raz tree with names, each used once, changes under a clone that is only
    focused and peeked at: here the element 1 is gone afterwards. *)
Definition named_tree : list (cmd nat ixc) :=
  [CRaz; CStep 0 (OPushL 1); CStep 0 (OArchL 5%N (Some (NStr "a"))); CStep 0 (OPushL 2); CUnfocus 0].
Definition peek_clone : list (cmd nat ixc) :=
  [CRead 1; CClone 1; CFocus 1 1%N; CStep 3 OPeekR; CRead 2].
Theorem C52_peek_persistence_refuted : exists os1 os2 sp st t1 t2,
  NoDup (flat_map c_names (named_tree ++ peek_clone)) /\
  s_run (Nsp := []) 50 [] (named_tree ++ peek_clone) nix = Ok ((os1 ++ os2, sp), st) /\
  os2 = [CTree (Count 2%N) (Some t1); CDone; CDone; CZ (OutElt (Some 2)); CTree (Count 2%N) (Some t2)] /\
  inorder t1 = [(0%N, None, Leaf [1]); (5%N, Some (NPair (NStr "a") (NStr "tree")), Branch (Count 1%N) (Count 1%N));
                (0%N, None, Leaf [2])] /\
  inorder t2 = [(5%N, Some (NPair (NStr "a") (NStr "tree")), Branch (Count 0%N) (Count 1%N)); (0%N, None, Leaf [2])].
Proof.
  exists [CDone; CZ (OutLen 1); CZ OutNone; CZ (OutLen 1); CDone]. do 5 eexists.
  split; [|split; [vm_compute; reflexivity|split; [reflexivity|split; reflexivity]]].
  vm_compute. repeat constructor; simpl; intuition discriminate.
Qed.
Print Assumptions C52_peek_persistence_refuted.

(** [up_discard] promises to drop the changes made below. If the changed node is named
    and was re-made on the way up, the discarded change is still there. *)
Definition discard_change {Nsp : here} : sm nat nat (tree nat * tree nat) :=
  act a <- s_tree_new 0%N None 1 None None;
  act b <- s_tree_new 0%N None 3 None None;
  act n <- s_tree_new 1%N (Some NUnit) 2 a b;
  act t <- s_tree_new 2%N None 4 n None;
  act t <- s_lift (unwrap "" t);
  act before <- st_read 5 t;
  act ' (_, c) <- sc_down_left_force ForceNo (sc_from t);
  act ' (_, c) <- sc_down_right_force ForceYes c;
  act ' (_, c) <- sc_down_right_force ForceDiscard c;
  act ' (_, c) <- @sc_up _ _ (derive_tree_update nat) Nsp c;
  act ' (_, c) <- sc_up_discard c;
  act t' <- s_lift (unwrap "" (sc_tree c));
  act after <- st_read 5 t';
  s_ret (before, after).
Theorem C52_up_discard_refuted : exists t1 t2 st,
  discard_change (Nsp := []) nix = Ok ((t1, t2), st) /\
  map snd (inorder t1) = [1; 2; 3; 4] /\ map snd (inorder t2) = [1; 2; 4].
Proof. do 3 eexists. split; [vm_compute; reflexivity|split; reflexivity]. Qed.
Print Assumptions C52_up_discard_refuted.

(** C53. A Raz program that uses every name once and clones nothing answers over every
    store as the immutable reading does, and writes only cells of its own names. *)
Theorem C53_raz_agrees : forall (E M : Type) (RM : RazMeta E M) (Nsp : here) (cs : list (cmd E Index)) os p',
  p_run [] cs = Ok (os, p') -> NoDup (flat_map c_names cs) -> existsb is_clone cs = false ->
  exists k0, forall k st, k0 <= k -> exists sp' st',
    s_run k [] cs st = Ok ((os, sp'), st') /\ 
    (forall a, fst a <> path \/ ~ In (snd a) (flat_map c_names cs) -> st' a = st a).
Proof. intros E M RM Nsp cs os p' H Nd Cl. apply (run_agrees cs os p' H Nd). intros C. congruence. Qed.
Print Assumptions C53_raz_agrees.

(** More generally names may be used again once no value uses them, and values without
    names may be cloned. *)
Theorem C53_raz_agrees_live : forall (E M : Type) (RM : RazMeta E M) (Nsp : here) (cs : list (cmd E Index)) os p',
  p_run [] cs = Ok (os, p') -> names_ok_run [] cs ->
  exists k0, forall k st, k0 <= k -> exists sp' st',
    s_run k [] cs st = Ok ((os, sp'), st') /\ 
    (forall a, fst a <> path \/ ~ In (snd a) (flat_map c_names cs) -> st' a = st a).
Proof. intros. eapply live_run_agrees; eassumption. Qed.
Print Assumptions C53_raz_agrees_live.

(** Whatever the bound on loops, such a program never panics and never answers otherwise;
    too small a bound is reported as such. *)
Theorem C53_any_bound : forall (E M : Type) (RM : RazMeta E M) (Nsp : here) (cs : list (cmd E Index)) os p',
  p_run [] cs = Ok (os, p') -> names_ok_run [] cs ->
  forall k st, s_run k [] cs st = Fuel \/ exists sp' st', s_run k [] cs st = Ok ((os, sp'), st').
Proof.
  intros E M RM Nsp cs os p' H Nk k st. destruct (C53_raz_agrees_live E M RM Nsp cs os p' H Nk) as [k0 K].
  destruct (K k0 st (le_n _)) as (sp' & st' & R & _). destruct (enough cs _ _ _ _ R k) as [F|F]; [now left|]. right. eauto.
Qed.
Print Assumptions C53_any_bound.

(** An older tree handle with none of these names in its tree reads as before. *)
Theorem C53_other_handles : forall (E M : Type) (RM : RazMeta E M) (Nsp : here) (cs : list (cmd E Index)) os p',
  p_run [] cs = Ok (os, p') -> NoDup (flat_map c_names cs) -> existsb is_clone cs = false ->
  exists k0, forall k st h t, k0 <= k -> reads st h t ->
    (forall lv n d, In (lv, Some n, d) (inorder t) -> ~ In n (flat_map c_names cs)) ->
    exists sp' st', s_run k [] cs st = Ok ((os, sp'), st') /\ reads st' h t.
Proof.
  intros E M RM Nsp cs os p' H Nd Cl. destruct (C53_raz_agrees E M RM Nsp cs os p' H Nd Cl) as [k0 K].
  exists k0. intros k st h t Hk R D. destruct (K k st Hk) as (sp' & st' & X & U).
  exists sp', st'. split; [exact X|]. exact (reads_frame st st' _ h t U R D).
Qed.
Print Assumptions C53_other_handles.

(** A stack program that uses every name once answers as immutable lists do, all older
    stacks included, and writes only cells of its own names. *)
Theorem C53_stack_agrees : forall (T A : Type) (Nsp : here) (cs : list (kcmd T)) (st : store T A),
  NoDup (flat_map k_names cs) ->
  exists sp' st', k_run [] cs st = Ok ((fst (kl_run [] cs), sp'), st') /\
    (forall a, fst a <> path \/ ~ In (snd a) (flat_map k_names cs) -> st' a = st a).
Proof. intros. now apply k_run_agrees. Qed.
Print Assumptions C53_stack_agrees.

(** Two trees with named archive points, one joined to the other under a name; the
    whole is focused, edited across a named point, unfocused and read. *)
Definition named_prog : list (cmd nat ixc) :=
  [CRaz; CStep 0 (OPushL 1); CStep 0 (OArchL 5%N (Some (NStr "a"))); CStep 0 (OPushL 2);
   CStep 0 (OArchL 3%N (Some (NStr "b"))); CStep 0 (OPushL 3); CUnfocus 0;
   CRaz; CStep 2 (OPushR 6); CStep 2 (OArchR 2%N (Some (NStr "c"))); CStep 2 (OPushR 5); CUnfocus 2;
   CJoin 1 4%N (Some (NStr "d")) 3; CRead 4; CFocus 4 2%N; CStep 5 OPeekR; CStep 5 OPopL; CStep 5 OPopL;
   CStep 5 (OPushL 8); CUnfocus 5; CRead 6].
Example C53_case : NoDup (flat_map c_names named_prog) /\ existsb is_clone named_prog = false /\
  exists os p1 p2 st m t, p_run [] named_prog = Ok (os, p1) /\ s_run (Nsp := []) 80 [] named_prog nix = Ok ((os, p2), st) /\
    nth_error os 20 = Some (CTree m (Some t)) /\
    flat_map (fun x => match snd x with Leaf v => v | _ => [] end) (inorder t) = [8; 3; 5; 6] /\
    match s_run (Nsp := []) 2 [] named_prog nix with Fuel => True | _ => False end.
Proof.
  split; [vm_compute; repeat constructor; simpl; intuition discriminate|]. split; [reflexivity|].
  do 6 eexists. split; [vm_compute; reflexivity|]. split; [vm_compute; reflexivity|].
  split; [vm_compute; reflexivity|]. split; vm_compute; [reflexivity|exact I].
Qed.
Example C53_case_stack :
  let cs := [KNew; KPush 0 (Some (NStr "a")) 1; KPush 1 (Some (NStr "b")) 2; KPush 1 (Some (NStr "c")) 3;
             KPull 3; KName 3; KTake 5 2; KTake 5 3; KTake 5 4] in
  NoDup (flat_map k_names cs) /\
  fst (kl_run [] cs) =
    [KDone; KDone; KDone; KDone; KDone; KNm (Some (NStr "c")); KList [2; 1]; KList [3; 1]; KList [1]].
Proof. split; [vm_compute; repeat constructor; simpl; intuition discriminate|reflexivity]. Qed.

(** The name "a" is used again after its tree was dropped; a tree without names is
    cloned in between. *)
Definition reuse_prog : list (cmd nat ixc) :=
  [CRaz; CStep 0 (OPushL 1); CStep 0 (OArchL 5%N (Some (NStr "a"))); CStep 0 (OPushL 2); CUnfocus 0; CDrop 1;
   CVec [7; 8]; CClone 2; CRaz; CStep 4 (OPushL 3); CStep 4 (OArchL 2%N (Some (NStr "a"))); CStep 4 (OPushL 4);
   CUnfocus 4; CRead 5].
Example C53_case_live : names_ok_run [] reuse_prog /\ ~ NoDup (flat_map c_names reuse_prog) /\
  exists os p1 p2 st m t, p_run [] reuse_prog = Ok (os, p1) /\ s_run (Nsp := []) 80 [] reuse_prog nix = Ok ((os, p2), st) /\
    nth_error os 13 = Some (CTree m (Some t)) /\
    flat_map (fun x => match snd x with Leaf v => v | _ => [] end) (inorder t) = [3; 4].
Proof.
  split; [|split].
  - unfold reuse_prog. cbn [names_ok_run].
    repeat (split; [unfold names_ok; cbn [c_names names_of point_name option_map app];
      split; [repeat constructor; simpl; intuition discriminate|];
      split; [|intros i v n Q; first [discriminate Q|injection Q as <-]]
    |match goal with |- match ?x with _ => _ end => let y := eval vm_compute in x in change x with y end; cbv iota beta;
     cbn [names_ok_run]]).
    all: try exact I; try (intros n v []).
    all: intros V U; simpl in V; repeat destruct V as [<-|V]; try contradiction; try (injection V as <-);
      unfold in_use, in_cursor, in_stack, in_tree in U; simpl in U; firstorder discriminate.
  - vm_compute. intros H. inversion H as [|? ? H1 H2]. apply H1. simpl. auto.
  - do 6 eexists. split; [vm_compute; reflexivity|]. split; [vm_compute; reflexivity|].
    split; vm_compute; reflexivity.
Qed.
