(** * The adder, both stages and the conversion between them memoised, over the store. *)

From Verif Require Import Base Spec SpecRaz RazFrom LevelTreeModel TreeCursorModel RazMetaModel RazModel RazView RazScripts RazReach RazExamples MemoModel MemoSpec MemoHistory
  StackModel AStackModel AccumModel AccumScripts AccumProofs ExampleModel ExampleSpec ExampleProofs AdderProofs StoreModel StoreSpec StoreScripts StoreProofs IncModel IncSpec
  IncFromModel ListIncModel ListIncSpec TokenIncModel ParseIncModel AdderIncModel AdderIncSpec AdderIncProofs PropMemo PropInc PropListInc PropTokenInc PropParseInc.

(** ** C118: whatever ran before, the adder leaves in the store the stack of numbers that the
    plain pipeline makes, or panics as that does; each stage writes, in its namespace, only
    cells named in the text *)
Theorem C118_adder : forall (M M' : Type) (RM : RazMeta N M) (RM' : RazMeta token M') (eqK : forall x y : token, {x = y} + {x <> y}) (eqD : forall x y : tree_data N M, {x = y} + {x <> y})
    (eqD' : forall x y : tree_data token M', {x = y} + {x <> y}) (q1 q2 q3 : list name) free (t : raz_tree N M),
  tree_reached free t -> NoDup (node_names t) -> levels_in (fun lv => lv < u32_max)%N (contents t) ->
  exists k0, forall k m st h, k0 <= k -> adder_ran eqK eqD eqD' q1 q2 q3 m -> tree_reads st h t ->
  match adder_vec (elts (contents t)) with
  | Ok v => exists y m' c a, adder_store eqK eqD eqD' q1 q2 q3 k h st m = Ok (y, m', c) /\
      adder_inc (RM' := RM') t = Ok a /\ astack_reads (m_numbers m') y a /\
      answers_as (astack_iface N) (fun lv => lv < u32_max)%N a (rev v) /\
      (forall b, fst b <> q1 \/ ~ In (snd b) (node_names t) -> m_tokens m' b = m_tokens m b) /\
      (forall b, fst b <> q2 \/ ~ In (snd b) (node_names t) -> m_trees m' b = match m_tokens m' b with Some (e, n) => Some (CBody e n) | None => m_trees m b end) /\
      (forall b, fst b <> q3 \/ ~ In (snd b) (node_names t) -> m_numbers m' b = m_numbers m b)
  | Panic e => adder_store eqK eqD eqD' q1 q2 q3 k h st m = Panic e
  | Fuel => False
  end.
Proof.
  intros M M' RM RM' eqK eqD eqD' q1 q2 q3 free t Re Nd Lv. destruct (next_adder eqK eqD eqD' q1 q2 q3 free t Re Nd Lv) as (k0 & H). exists k0.
  intros k m st h Hk Rm Rd. specialize (H k m st h Hk Rm Rd).
  pose proof (adder_inc_sim (RM' := RM') t (proj1 (tree_reached_good t Re)) Lv) as S.
  destruct (adder_inc t) as [a|e|], (adder_vec (elts (contents t))) as [v|e'|]; try contradiction.
  - destruct H as (y & m' & c & H1 & H2 & H3). exists y, m', c, a. split; [exact H1|]. split; [reflexivity|]. split; [exact H2|]. split; [exact S|exact H3].
  - cbn in S. now subst.
Qed.
Print Assumptions C118_adder.

(** ** Examples *)
#[local] Open Scope N_scope.
Notation amem := (memory count count).
Definition eqTk (x y : token) : {x = y} + {x <> y} := ltac:(decide equality; apply N.eq_dec).
Definition TOTREE := [NStr "tokenize"; NStr "to_tree"].
Definition fresh : amem := Memory (fun _ => None) (fun _ => None) (fun _ => None) no_wentries no_centries no_wentries.
Definition adding (x : tstate) (m : amem) : res (sastack N level * amem * (nat * nat * nat)) := adder_store eqTk eqCN eqCT TOKENS TOTREE NUMS 80 (snd x) (fst x) m.
Definition nums_of (r : res (sastack N level * amem * (nat * nat * nat))) : option (list (list N)) :=
  match r with
  | Ok (y, m, _) =>
      Some (sa_current y :: match sa_archived y with Some (HCell a) => match m_numbers m a with Some ((_, v), _) => [v] | None => [] end | _ => [] end)
  | _ => None
  end.
Lemma it_is_ok : forall (A : Type) (r : res A), match r with Ok _ => true | _ => false end = true -> exists x, r = Ok x.
Proof. intros A [x|m|] H; [exists x; reflexivity|discriminate H|discriminate H]. Qed.
(** 1|+2|3|4+|5|+|6, then, with the memory of that, 19|+2|38|4+|5|+|6. *)
Example C118_case : Forall (fun t => tree_reached false t) [st2; st0] /\ NoDup (node_names st2) /\ levels_in (fun lv => lv < u32_max) (contents st2) /\
  tree_reads (within HOME (fst y2)) (snd y2) st2 /\
  adder_vec (elts (contents st0)) = Ok [240; 6] /\ adder_vec (elts (contents st2)) = Ok [2408; 6] /\
  exists y m c, adding y0 fresh = Ok (y, m, c) /\ adder_ran eqTk eqCN eqCT TOKENS TOTREE NUMS m /\
    nums_of (adding y0 fresh) = Some [[6]; [240]] /\ nums_of (adding y2 m) = Some [[6]; [2408]].
Proof.
  assert (G : exists y m c, adding y0 fresh = Ok (y, m, c)).
  { destruct (it_is_ok _ (adding y0 fresh)) as [[[y m] c] G]; [vm_compute; reflexivity|]. exists y, m, c. exact G. }
  destruct G as (y & m & c & G). split.
  { pose proof (proj1 texts_reached) as T. inversion T as [|? ? T2 T']. inversion T' as [|? ? _ T'']. apply Forall_cons; [exact T2|exact T'']. }
  split; [vm_compute; repeat (constructor; [simpl; intuition discriminate|]); constructor|].
  split; [repeat (apply Forall_cons; [reflexivity|]); apply Forall_nil|].
  split; [exact (proj1 (Forall2_both _ _ _ _ _ _ _ (proj1 texts_read)))|].
  split; [vm_compute; reflexivity|]. split; [vm_compute; reflexivity|].
  exists y, m, c. split; [exact G|]. split.
  { apply (adder_more eqTk eqCN eqCT TOKENS TOTREE NUMS fresh 80 (snd y0) (fst y0) y m c); [apply adder_none; reflexivity|exact G]. }
  split; [vm_compute; reflexivity|].
  assert (B : match adding y0 fresh with Ok (_, m, _) => nums_of (adding y2 m) | _ => None end = Some [[6]; [2408]]) by (vm_compute; reflexivity).
  rewrite G in B. exact B.
Qed.
(** The calls that tokenizer, conversion and parser enter when run on the first text, on it
    again, on the second, on it again, and on the first. *)
Fixpoint calls (xs : list tstate) (m : amem) : list (nat * nat * nat) :=
  match xs with
  | [] => []
  | x :: xs => match adding x m with Ok (_, m, c) => c :: calls xs m | _ => [] end
  end.
Example C118_case_calls : calls [y0; y0; y2; y2; y0] fresh = [(13, 3, 7); (1, 0, 1); (9, 3, 6); (1, 0, 1); (9, 3, 6)]%nat.
Proof. vm_compute. reflexivity. Qed.
(** A character that is none of the language. *)
Example C118_case_panic : adding (typed 5 56 (typed 1 99 y0)) fresh = Panic "invalid char".
Proof. vm_compute. reflexivity. Qed.
