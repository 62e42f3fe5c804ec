(** * Properties of versions made in a namespace (C73).

    src/lib.rs says: "Editing a mutable structure within a namespace should produce a
    version whose edits do not affect the original, but this has not been thoroughly
    tested." *)

From Verif Require Import Base Spec SpecRaz StackModel AStackModel StackScripts LevelTreeModel TreeCursorModel
  RazMetaModel RazModel TreeSpec RazScripts StoreModel StoreSpec StoreScripts StoreHistory StoreNs.

(** C73. Whatever a program does in a namespace [q], with whatever handles, names and
    fuel, to whatever store: the cells of all other namespaces stay as they were, ... *)
Theorem C73_isolated : forall (E M : Type) (RM : RazMeta E M) (q : list name) k
    (sp : list (val (sraz_tree E M) (sraz_z E M))) (cs : list (cmd E Index)) st x st',
  s_run (Nsp := q) k sp cs st = Ok (x, st') -> forall a, fst a <> q -> st' a = st a.
Proof. intros E M RM q k sp cs st x st' H. exact (run_isolated q k sp cs st x st' H). Qed.
Print Assumptions C73_isolated.

Theorem C73_stack_isolated : forall (T A : Type) (q : list name) (sp : list (option (shead T))) (cs : list (kcmd T))
    (st : store T A) x st',
  k_run (Nsp := q) sp cs st = Ok (x, st') -> forall a, fst a <> q -> st' a = st a.
Proof. intros T A q sp cs st x st' H. exact (tame_stays _ (tame_k_run (Nsp := q) cs sp) _ _ _ H). Qed.
Print Assumptions C73_stack_isolated.

(** ... so a tree that was made elsewhere reads as before, though its own handle was
    given to the program. *)
Theorem C73_original_unaffected : forall (E M : Type) (RM : RazMeta E M) (q : list name) k
    (sp : list (val (sraz_tree E M) (sraz_z E M))) (cs : list (cmd E Index)) st x st' h t,
  s_run (Nsp := q) k sp cs st = Ok (x, st') -> reads (without q st) h t -> reads (without q st') h t.
Proof.
  intros E M RM q k sp cs st x st' h t H. apply reads_below, without_same. exact (run_isolated q k sp cs st x st' H).
Qed.
Print Assumptions C73_original_unaffected.

(** The version is the one intended: started from handles [hs] of trees [ts] (no name
    occurring twice in them), a program that brings only new names answers in [q] as the
    immutable code does on [ts], the trees it is left with read as the immutable ones,
    and the originals can still be read. *)
Theorem C73_version : forall (E M : Type) (RM : RazMeta E M) (q : list name) (cs : list (cmd E Index)) ts os p',
  p_run (map VTree ts) cs = Ok (os, p') -> names_ok_run (map VTree ts) cs -> NoDup (flat_map node_names ts) ->
  exists k0, forall k st hs, k0 <= k -> Forall2 (tree_reads (without q st)) hs ts ->
  exists sp' st', s_run (Nsp := q) k (map VTree hs) cs st = Ok ((os, sp'), st') /\ Forall2 (shows st') sp' p' /\
    Forall2 (tree_reads (without q st')) hs ts.
Proof.
  intros E M RM q cs ts os p' H Nk Nd. destruct (versions q cs ts os p' H Nk Nd) as [k0 K].
  exists k0. intros k st hs Hk F.
  destruct (K k st hs Hk) as (sp' & st' & R & S & O & _).
  { eapply Forall2_weaken; [|exact F]. intros h t. apply tree_reads_below, without_below. }
  exists sp', st'. auto.
Qed.
Print Assumptions C73_version.

(** Two versions of the same trees in two namespaces: both are right, the second does
    not disturb the first, and the originals can still be read. *)
Theorem C73_two_versions : forall (E M : Type) (RM : RazMeta E M) (q r : list name) (cs ds : list (cmd E Index))
    ts os ps us vs,
  q <> r -> NoDup (flat_map node_names ts) ->
  p_run (map VTree ts) cs = Ok (os, ps) -> names_ok_run (map VTree ts) cs ->
  p_run (map VTree ts) ds = Ok (us, vs) -> names_ok_run (map VTree ts) ds ->
  exists k0, forall k st hs, k0 <= k -> Forall2 (tree_reads (without q (without r st))) hs ts ->
  exists sp st1 sq st2,
    s_run (Nsp := q) k (map VTree hs) cs st = Ok ((os, sp), st1) /\
    s_run (Nsp := r) k (map VTree hs) ds st1 = Ok ((us, sq), st2) /\
    Forall2 (shows st2) sp ps /\ Forall2 (shows st2) sq vs /\
    Forall2 (tree_reads (without q (without r st2))) hs ts.
Proof. intros E M RM q r cs ds ts os ps us vs. apply two_versions. Qed.
Print Assumptions C73_two_versions.

(** The original is the tree 1 | 2 | 3 made in the root namespace, with the names "a"
    and "b" at its archive points. *)
Definition nix {T A} : store T A := fun _ => None.
Notation ixc := (@Index nat count _).
Definition pa := Some (NPair (NStr "a") (NStr "tree")).
Definition pb := Some (NPair (NStr "b") (NStr "tree")).
Definition original : list (cmd nat ixc) :=
  [CRaz; CStep 0 (OPushL 1); CStep 0 (OArchL 5%N (Some (NStr "a"))); CStep 0 (OPushL 2);
   CStep 0 (OArchL 3%N (Some (NStr "b"))); CStep 0 (OPushL 3); CUnfocus 0; CRead 1].
(** An edit of tree number [i] at position [p]: insert [e] there. *)
Definition insert (i : nat) (p : N) (e : nat) (n : nat) : list (cmd nat ixc) :=
  [CFocus i p; CStep n (OPushL e); CUnfocus n; CRead (n + 1)].
Definition numbers (o : option (cout nat count)) : list nat :=
  match o with
  | Some (CTree _ (Some t)) => flat_map (fun x => match snd x with Leaf v => v | _ => [] end) (inorder t)
  | _ => []
  end.
Definition V := [NStr "v"].
Definition W := [NStr "w"].
Notation pool := (list (val (sraz_tree nat count) (sraz_z nat count))).
Definition pick (i : nat) (p : pool) : sm (level * list nat) (tree_data nat count) _ :=
  s_lift (unwrap "" (nth_error p i)).

(** A version in [V], then one of the same original in [W]: all three can be read. *)
Definition two_namespaces : sm (level * list nat) (tree_data nat count) (list (cout nat count)) :=
  act ' (_, p) <- s_run (Nsp := []) 80 [] original;
  act x <- pick 1 p;
  act ' (_, p) <- s_run (Nsp := V) 80 [x] (insert 0 0%N 9 1);
  act y <- pick 2 p;
  act ' (_, p) <- s_run (Nsp := W) 80 [x] (insert 0 3%N 7 1);
  act z <- pick 2 p;
  act ' (o, _) <- s_run (Nsp := []) 80 [x; y; z] [CRead 0; CRead 1; CRead 2];
  s_ret o.
Example C73_case : exists o st, two_namespaces nix = Ok (o, st) /\
  map (fun c => numbers (Some c)) o = [[1; 2; 3]; [9; 1; 2; 3]; [1; 2; 3; 7]].
Proof. do 2 eexists. split; vm_compute; reflexivity. Qed.

(** The hypotheses of [C73_two_versions] hold for it. *)
Definition original_tree : raz_tree nat count :=
  RazTree (Count 3%N) (Some (Node 5%N pa (Branch (Count 1%N) (Count 2%N)) (Some (Node 0%N None (Leaf [1]) None None))
    (Some (Node 3%N pb (Branch (Count 1%N) (Count 1%N)) (Some (Node 0%N None (Leaf [2]) None None))
             (Some (Node 0%N None (Leaf [3]) None None)))))).
Lemma insert_ok : forall t p e, names_ok_run [VTree t] (insert 0 p e 1).
Proof.
  intros t p e. unfold insert. cbn [names_ok_run].
  repeat (split; [split; [constructor|split; [intros ? ? []|discriminate]]|];
          match goal with |- match ?x with _ => _ end => destruct x as [[]| |]; auto end).
Qed.
Example C73_case_hyps : NoDup (flat_map node_names [original_tree]) /\
  (forall p e, names_ok_run (map VTree [original_tree]) (insert 0 p e 1)) /\
  (exists os ps, p_run (map VTree [original_tree]) (insert 0 0%N 9 1) = Ok (os, ps) /\
     numbers (nth_error os 3) = [9; 1; 2; 3]) /\
  (exists os ps, p_run (map VTree [original_tree]) (insert 0 3%N 7 1) = Ok (os, ps) /\
     numbers (nth_error os 3) = [1; 2; 3; 7]) /\
  exists os p st h, s_run (Nsp := []) 80 [] original nix = Ok ((os, p), st) /\ nth_error p 1 = Some (VTree h) /\
    tree_reads (without V (without W st)) h original_tree.
Proof.
  split; [vm_compute; repeat constructor; simpl; intuition discriminate|].
  split; [intros p e; apply insert_ok|].
  split; [do 2 eexists; split; [vm_compute; reflexivity|reflexivity]|].
  split; [do 2 eexists; split; [vm_compute; reflexivity|reflexivity]|].
  do 4 eexists. split; [vm_compute; reflexivity|]. split; [reflexivity|].
  split; [reflexivity|]. exists 10. vm_compute. reflexivity.
Qed.

(** The converse direction fails: the version shares the parts it did not touch with the
    original, and an edit of the original, made later in its own namespace, shows in the
    version. *)
Definition edit_original : sm (level * list nat) (tree_data nat count) (list (cout nat count)) :=
  act ' (_, p) <- s_run (Nsp := []) 80 [] original;
  act x <- pick 1 p;
  act ' (o1, p) <- s_run (Nsp := V) 80 [x] (insert 0 0%N 9 1);
  act y <- pick 2 p;
  act ' (_, p) <- s_run (Nsp := []) 80 [x] (insert 0 3%N 7 1);
  act ' (o, _) <- s_run (Nsp := []) 80 [y] [CRead 0];
  s_ret (skipn 3 o1 ++ o).
Theorem C73_version_keeps_refuted : exists o st, edit_original nix = Ok (o, st) /\
  map (fun c => numbers (Some c)) o = [[9; 1; 2; 3]; [9; 1; 2; 3; 7]].
Proof. do 2 eexists. split; vm_compute; reflexivity. Qed.
Print Assumptions C73_version_keeps_refuted.

(** Two versions in the same namespace: the second takes the place of the first. *)
Definition same_namespace : sm (level * list nat) (tree_data nat count) (list (cout nat count)) :=
  act ' (_, p) <- s_run (Nsp := []) 80 [] original;
  act x <- pick 1 p;
  act ' (o1, p) <- s_run (Nsp := V) 80 [x] (insert 0 0%N 9 1);
  act y <- pick 2 p;
  act ' (_, p) <- s_run (Nsp := V) 80 [x] (insert 0 3%N 7 1);
  act ' (o, _) <- s_run (Nsp := []) 80 [y] [CRead 0];
  s_ret (skipn 3 o1 ++ o).
Theorem C73_same_namespace_refuted : exists o st, same_namespace nix = Ok (o, st) /\
  map (fun c => numbers (Some c)) o = [[9; 1; 2; 3]; [1; 2; 3; 7]].
Proof. do 2 eexists. split; vm_compute; reflexivity. Qed.
Print Assumptions C73_same_namespace_refuted.
