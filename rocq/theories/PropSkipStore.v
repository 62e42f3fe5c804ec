(** * Skiplists over a store of named cells (C105), and unique_elms on them (C106). *)

From Verif Require Import Base Spec SpecRaz StoreModel RazMetaModel RazModel TreeSpec RazView RazScripts RazReach RazExamples
  SkiplistModel MapScripts SkipStoreModel SkipStoreSpec SkipStoreProofs UniqueStoreModel UniqueStoreProofs.

(** C105. Any number of handles, made by emp and clone and used in any order and in
    any namespaces, answer like maps of their own, from any store, if no cell is
    written twice. *)
Theorem C105_answers : forall (K V : Type) (keqb : K -> K -> bool) (my_hash : K -> N) (debug : bool),
  (forall a b, keqb a b = true <-> a = b) ->
  forall (st : cells K V) (ops : list (h_op K V)), lengths_fine debug ops -> NoDup (h_writes [] ops) ->
  exists st', h_run keqb my_hash debug st [] ops = Ok (h_spec_run keqb [] ops, st').
Proof. intros K V. exact fresh_answers. Qed.
Print Assumptions C105_answers.

(** For one handle in one namespace it is enough that the names given to it differ. *)
Theorem C105_alone : forall (K V : Type) (keqb : K -> K -> bool) (my_hash : K -> N) (debug : bool),
  (forall a b, keqb a b = true <-> a = b) ->
  forall (st : cells K V) len n q (ops : list (map_op K V)), 0 < len -> (debug = true -> len < 64) ->
  NoDup (n :: archived ops) ->
  exists st', h_run keqb my_hash debug st [] (alone len n q ops) = Ok (None :: map_spec_run keqb [] ops, st').
Proof. intros K V. exact alone_answers. Qed.
Print Assumptions C105_alone.

(** Exactly the cells of the names and numbers of the extended handles are written. *)
Theorem C105_writes : forall (K V : Type) (keqb : K -> K -> bool) (my_hash : K -> N) (debug : bool)
    (st : cells K V) (ops : list (h_op K V)) rs st',
  h_run keqb my_hash debug st [] ops = Ok (rs, st') ->
  (forall a, ~ In a (h_writes [] ops) -> st' a = st a) /\
  (forall a, In a (h_writes [] ops) -> st' a <> None).
Proof. intros K V keqb my_hash debug st ops. exact (h_run_effect keqb my_hash debug ops st []). Qed.
Print Assumptions C105_writes.

(** Old versions next to new ones: handle 1 is a clone of handle 0 before it is
    extended further; it gets another name first. *)
Definition c105_ops : list (h_op nat nat) :=
  [HEmp 3 NUnit; HDo 0 [] (MPut 7 10); HDo 0 [nm_a] (MPut 15 20); HClone 0; HDo 1 [] (MArchive nm_b);
   HDo 0 [] (MExt 7 (Some 11)); HDo 1 [] (MRem 15); HDo 1 [] (MPut 2 30);
   HDo 0 [] (MGet 7); HDo 0 [] (MGet 15); HDo 0 [] (MGet 2); HDo 1 [] (MGet 7); HDo 1 [] (MGet 15); HDo 1 [] (MGet 2)].
Example C105_case : lengths_fine true c105_ops /\
  h_writes [] c105_ops =
    [([], NPair NUnit (NNum 1)); ([nm_a], NPair NUnit (NNum 2)); ([], NPair NUnit (NNum 3));
     ([], NPair nm_b (NNum 0)); ([], NPair nm_b (NNum 1))] /\
  NoDup (h_writes [] c105_ops) /\
  h_spec_run Nat.eqb [] c105_ops =
    [None; None; None; None; None; Some (Some 10); Some (Some 20); None;
     Some (Some 11); Some (Some 20); Some None; Some (Some 10); Some None; Some (Some 30)] /\
  exists st', h_run Nat.eqb N.of_nat true (fun _ => Some (SPath 0 [] [])) [] c105_ops =
    Ok (h_spec_run Nat.eqb [] c105_ops, st').
Proof.
  split; [|split; [reflexivity|split; [|split; [reflexivity|eexists; vm_compute; reflexivity]]]].
  - intros len n I. repeat (destruct I as [I|I]; [inversion I; subst; lia|]). destruct I.
  - repeat constructor; intros I; repeat (destruct I as [I|I]; [discriminate|]); destruct I.
Qed.
Example C105_alone_case :
  NoDup (NUnit :: archived [MPut 7 10; MPut 15 20; MArchive nm_a; MPut 2 30; MRem 7; MArchive nm_b; MGet 7; MExt 15 (Some 1); MGet 2]) /\
  map_spec_run Nat.eqb [] [MPut 7 10; MPut 15 20; MArchive nm_a; MPut 2 30; MRem 7; MArchive nm_b; MGet 7; MExt 15 (Some 1); MGet 2] =
    [None; None; None; None; Some (Some 10); None; Some None; Some (Some 20); Some (Some 30)] /\
  exists st', h_run Nat.eqb N.of_nat true (fun _ => None) []
    (alone 3 NUnit [] [MPut 7 10; MPut 15 20; MArchive nm_a; MPut 2 30; MRem 7; MArchive nm_b; MGet 7; MExt 15 (Some 1); MGet 2]) =
    Ok ([None; None; None; None; None; Some (Some 10); None; Some None; Some (Some 20); Some (Some 30)], st').
Proof.
  split; [|split; [reflexivity|eexists; vm_compute; reflexivity]].
  repeat constructor; intros I; repeat (destruct I as [I|I]; [discriminate|]); destruct I.
Qed.

(** A clone is not enough to keep an old version: both handles go on with the same
    name and number, and what the one puts, the other gets. *)
Theorem C105_clones_refuted : exists ops : list (h_op nat nat), lengths_fine true ops /\
  h_spec_run Nat.eqb [] ops = [None; None; None; None; None; Some (Some 20); Some (Some 30)] /\
  exists st', h_run Nat.eqb N.of_nat true (fun _ => None) [] ops =
    Ok ([None; None; None; None; None; Some (Some 30); Some (Some 30)], st').
Proof.
  exists [HEmp 3 NUnit; HDo 0 [] (MPut 1 10); HClone 0; HDo 0 [] (MPut 1 20); HDo 1 [] (MPut 1 30);
          HDo 0 [] (MGet 1); HDo 1 [] (MGet 1)].
  split; [|split; [reflexivity|eexists; vm_compute; reflexivity]].
  intros len n I. repeat (destruct I as [I|I]; [inversion I; subst; lia|]). destruct I.
Qed.
Print Assumptions C105_clones_refuted.

(** Archiving with a name used before, even the one of emp, loses bindings. *)
Theorem C105_names_refuted : exists ops : list (map_op nat nat), archived ops = [NUnit] /\
  map_spec_run Nat.eqb [] ops = [None; None; None; None; Some (Some 10)] /\
  exists st', h_run Nat.eqb N.of_nat true (fun _ => None) [] (alone 3 NUnit [] ops) =
    Ok ([None; None; None; None; None; Some None], st').
Proof.
  exists [MPut 1 10; MArchive NUnit; MPut 2 20; MPut 3 30; MGet 1].
  split; [reflexivity|]. split; [reflexivity|]. eexists. vm_compute. reflexivity.
Qed.
Print Assumptions C105_names_refuted.

(** Whatever is overwritten: no panic (and no endless search) if all handles have one
    length below 64, and what is returned for a key was bound to it before. *)
Theorem C105_no_panic : forall (K V : Type) (keqb : K -> K -> bool) (my_hash : K -> N) (debug : bool) L, 0 < L -> L < 64 ->
  forall (st : cells K V) (ops : list (h_op K V)), same_length L ops ->
  exists rs st', h_run keqb my_hash debug st [] ops = Ok (rs, st').
Proof. intros K V. exact never_panics. Qed.
Print Assumptions C105_no_panic.

Theorem C105_was_bound : forall (K V : Type) (keqb : K -> K -> bool) (my_hash : K -> N) (debug : bool),
  (forall a b, keqb a b = true <-> a = b) ->
  forall (st : cells K V) (ops : list (h_op K V)) rs st', h_run keqb my_hash debug st [] ops = Ok (rs, st') ->
  forall i h q op k v, nth_error ops i = Some (HDo h q op) -> asks op = Some k ->
    nth_error rs i = Some (Some (Some v)) ->
    exists j h' q' op', j < i /\ nth_error ops j = Some (HDo h' q' op') /\ binds op' = Some (k, Some v).
Proof. intros K V. exact answers_were_put. Qed.
Print Assumptions C105_was_bound.

(** Cells that refer to themselves: the last put overwrites the cell of 2, to which
    it refers. *)
Definition c105_cycle : list (h_op nat nat) :=
  [HEmp 3 NUnit; HDo 0 [] (MPut 2 20); HDo 0 [] (MArchive NUnit); HDo 0 [] (MPut 4 40); HDo 0 [] (MPut 3 30);
   HDo 0 [] (MGet 2); HDo 0 [] (MGet 3); HDo 0 [] (MGet 4)].
Example C105_no_panic_case : same_length 3 c105_cycle /\
  exists st', h_run Nat.eqb N.of_nat true (fun _ => None) [] c105_cycle =
    Ok ([None; None; None; None; None; Some None; Some (Some 30); Some (Some 40)], st') /\
    st' ([], NPair NUnit (NNum 1)) =
      Some (SPath 3 [(3, Some 30)] [Some ([], NPair NUnit (NNum 0)); None; None]) /\
    st' ([], NPair NUnit (NNum 0)) =
      Some (SPath 4 [(4, Some 40)] [None; Some ([], NPair NUnit (NNum 1)); None]) /\
    nth_error c105_cycle 6 = Some (HDo 0 [] (MGet 3)) /\ asks (V := nat) (MGet 3) = Some 3.
Proof.
  split.
  - intros len n I. repeat (destruct I as [I|I]; [inversion I; subst; lia|]). destruct I.
  - eexists. split; [vm_compute; reflexivity|]. repeat split; vm_compute; reflexivity.
Qed.

(** With two lengths, overwriting can make a lookup panic. *)
Theorem C105_lengths_refuted : exists ops : list (h_op nat nat), lengths_fine true ops /\
  h_run Nat.eqb N.of_nat true (fun _ => None) [] ops = Panic "called Option::unwrap on None".
Proof.
  exists [HEmp 3 NUnit; HEmp 2 NUnit; HDo 0 [] (MPut 1 10); HDo 1 [] (MPut 1 20); HDo 0 [] (MGet 1)].
  split; [|vm_compute; reflexivity].
  intros len n I. repeat (destruct I as [I|I]; [inversion I; subst; lia|]). destruct I.
Qed.
Print Assumptions C105_lengths_refuted.

(** C106. unique_elms on a skiplist over any store finds exactly the elements, if the
    names in the tree are different, and none is the unit name or "start". *)
Theorem C106_unique_elms_store : forall (E M : Type) (RM : RazMeta E M) (keqb : E -> E -> bool) (my_hash : E -> N) (debug : bool),
  (forall a b, keqb a b = true <-> a = b) ->
  forall pathlen, 0 < pathlen -> (debug = true -> pathlen < 64) ->
  forall (q : list name) free (st : cells E unit) (t : raz_tree E M), tree_reached free t ->
  NoDup (NUnit :: NStr "start" :: named_marks (contents t)) ->
  exists st' s, unique_elms_store keqb my_hash debug pathlen q st t = Ok (st', s) /\
    forall k, ssk_get keqb my_hash debug st' s k = Ok (if existsb (keqb k) (elts (contents t)) then Some tt else None).
Proof. intros E M RM. exact unique_store_ok. Qed.
Print Assumptions C106_unique_elms_store.

Example C106_case : tree_reached false ex_tc /\ named_marks (contents ex_tc) = [in_tree nm_a; in_tree nm_b] /\
  NoDup (NUnit :: NStr "start" :: named_marks (contents ex_tc)) /\
  (do ' (st, s) <- unique_elms_store Nat.eqb (fun n => N.of_nat (n mod 3)) true 2 [nm_a] (fun _ => None) ex_tc;
   do a <- ssk_get Nat.eqb (fun n => N.of_nat (n mod 3)) true st s 4;
   do b <- ssk_get Nat.eqb (fun n => N.of_nat (n mod 3)) true st s 7;
   Ok (a, b)) = Ok (Some tt, None).
Proof.
  split; [exact ex_tc_reached|]. split; [reflexivity|]. split; [|vm_compute; reflexivity].
  repeat constructor; intros I; repeat (destruct I as [I|I]; [discriminate|]); destruct I.
Qed.

(** With a name twice in the tree an element can be missed: 1 |a| 2 |a| 3 |b| 4. *)
Definition c106_ops : list (zop nat) :=
  [OPushL 1; OArchL 2%N (Some nm_a); OPushL 2; OArchL 1%N (Some nm_a); OPushL 3; OArchL 3%N (Some nm_b); OPushL 4].
Theorem C106_names_refuted : exists (t : raz_tree nat count) st' s, tree_reached false t /\ In 3 (elts (contents t)) /\
  unique_elms_store Nat.eqb N.of_nat true 8 [] (fun _ => None) t = Ok (st', s) /\
  ssk_get Nat.eqb N.of_nat true st' s 3 = Ok None.
Proof.
  exists (raz_to_tree (run_raz c106_ops)). eexists _, _. split.
  - refine (TR_unfocus _ _ _ _ (run_raz c106_ops) _ _ _); [|vm_compute; reflexivity].
    eapply (zrun_reached c106_ops raz_new); [|apply RR_new|vm_compute; reflexivity].
    repeat constructor; simpl; lia.
  - split; [vm_compute; auto|]. split; vm_compute; reflexivity.
Qed.
Print Assumptions C106_names_refuted.
