(** * The memoised tokenizer of the adder over the store: answers, and the work of a rerun. *)

From Verif Require Import Base Spec SpecRaz LevelTreeModel TreeCursorModel RazMetaModel RazModel RazView RazScripts RazReach RazExamples MemoModel MemoSpec MemoHistory
  StackModel AStackModel AccumModel AccumScripts AccumProofs ExampleModel ExampleSpec ExampleProofs AdderProofs StoreModel StoreSpec StoreScripts StoreProofs IncModel IncSpec
  ListIncModel ListIncSpec ListIncProofs ListIncCost TokenIncModel TokenIncProofs StoreHistory MemoEval PropMemo PropInc PropListInc.

(** ** C115: whatever ran before, the tokenizer leaves in the store the stack, with its archive
    points, that the plain tokenizer makes, of the tokens of the text, or panics as tokenizing
    the plain text does; it writes only cells named in the tree *)
Theorem C115_tokens : forall (M : Type) (RM : RazMeta N M) (eqD : forall x y : tree_data N M, {x = y} + {x <> y}) (Nsp : here) free (t : raz_tree N M),
  tree_reached free t -> NoDup (node_names t) ->
  exists k0, forall k hist tab st cs h, k0 <= k -> w_ran (tokenize_inc eqD) hist tab -> tree_reads st h t ->
  match tokenize_vec (vec_iface token) (elts (contents t)) with
  | Ok ts => exists y cs' tr tab' lg a, tokenize_inc eqD k h st cs tab = Ok (y, cs', tr, tab', lg) /\
      tokenize_tree (astack_iface token) t = Ok a /\ astack_reads cs' y a /\
      answers_as (astack_iface token) (fun _ => True) a (rev ts) /\
      forall b, fst b <> path \/ ~ In (snd b) (node_names t) -> cs' b = cs b
  | Panic m => tokenize_inc eqD k h st cs tab = Panic m
  | Fuel => False
  end.
Proof.
  intros M RM eqD Nsp free t Re Nd. destruct (next_tokenize eqD free t Re Nd) as (k0 & H). exists k0.
  intros k hist tab st cs h Hk Rn Rd. specialize (H k hist tab st cs h Hk Rn Rd).
  pose proof (tokenize_any (astack_iface token) (fun _ => True) free t Re (as_lifo token) (fun _ _ => I)) as P.
  destruct (tokenize_vec (vec_iface token) (elts (contents t))) as [ts|m|]; [|now rewrite P in H|exact P].
  destruct P as (a & Q & An). rewrite Q in H. destruct H as (y & cs' & tr & tab' & lg & H1 & H2 & H3). exists y, cs', tr, tab', lg, a. auto.
Qed.
Print Assumptions C115_tokens.

(** ** C116: with a sign between the change and the next archive point, how much of it runs
    again, and which cells it writes *)
Theorem C116_rerun : forall (M : Type) (RM : RazMeta N M) (eqD : forall x y : tree_data N M, {x = y} + {x <> y})
    (q : list name) (Nsp : here) (t t' : raz_tree N M) older pre mid mid' post e hist tab,
  Forall (fun t => tree_reached false t) (t' :: t :: older) ->
  orderly_points (map contents (t' :: t :: older)) ->
  contents t = pre ++ mid ++ post -> contents t' = pre ++ mid' ++ post ->
  Forall in_lang (elts (contents t)) -> Forall in_lang (elts (contents t')) ->
  (exists v r, post = map Elt v ++ r /\ In 43%N v) ->
  w_ran (tokenize_inc eqD) (e :: hist) tab -> w_undisturbed path (e :: hist) ->
  Forall2 (fun e t => tree_reads (within q (w_trees e)) (w_given e) t) (e :: hist) (t' :: t :: older) ->
  length (w_entered e) <= 1 + 2 * (seen_from_right pre + length (marks mid') + seen_from_left 0%N post) /\
  forall b, w_after e b = w_before e b \/ fst b = path /\ exists h, In h (w_entered e) /\ st_name h = Some (snd b).
Proof.
  intros M RM eqD q Nsp t t' older pre mid mid' post e hist tab Re Op C C' L L' P R U F.
  exact (again_tokenize eqD q t t' older pre mid mid' post e hist tab Re Op C C' (elts_speak _ L) (elts_speak _ L') P R U F).
Qed.
Print Assumptions C116_rerun.

(** ** Examples *)
#[local] Open Scope N_scope.
Definition TOKENS := [NStr "tokenize"].
Definition eqCN := td_eq_dec (E := N) (M := count) N.eq_dec eq_count.
Notation ixN := (@Index N count _).
Notation tstate := (store (level * list N) (tree_data N count) * sraz_tree N count)%type.
Notation tcells := (wcells (body (level * list token))).
Notation tkey := (stree (tree_data N count) * option name * tok_state)%type.
Notation ttable := (wtab (tree_data N count) (body (level * list token)) tkey tok_state).
Notation tevent := (wevent (level * list N) (tree_data N count) (body (level * list token)) (sraz_tree N count) (sastack token level)).
Definition tokens : nat -> sraz_tree N count -> wm (level * list N) (tree_data N count) (body (level * list token)) tkey tok_state (sastack token level) :=
  tokenize_inc (Nsp := TOKENS) eqCN.
Definition text_ops (a b c d e f g : list N) : list (zop N) :=
  (map OPushL a ++ [OArchL 3 (Some (nm_k 1))] ++ map OPushL b ++ [OArchL 1 (Some (nm_k 2))] ++ map OPushL c ++ [OArchL 4 (Some (nm_k 3))] ++
   map OPushL d ++ [OArchL 2 (Some (nm_k 4))] ++ map OPushL e ++ [OArchL 5 (Some (nm_k 5))] ++ map OPushL f ++ [OArchL 1 (Some (nm_k 6))] ++ map OPushL g)%list.
Definition tgo (cs : list (cmd N ixN)) (hs : list (sraz_tree N count)) st : tstate :=
  match s_run (Nsp := HOME) 80 (map VTree hs) cs st with
  | Ok ((_, sp), st') => (st', match last sp VGone with VTree h => h | _ => SRazTree (Count 0) None end)
  | _ => (st, SRazTree (Count 0) None)
  end.
Definition typing (ops : list (zop N)) : tstate := tgo (CRaz :: map (CStep 0) ops ++ [CUnfocus 0])%list [] nix.
Definition typed (k c : N) (x : tstate) : tstate := tgo [CFocus 0 k; CStep 1 (OPushL c); CUnfocus 1] [snd x] (fst x).
(** 1|+2|3|4+|5|+|6, then 19|+2|3|4+|5|+|6, then 19|+2|38|4+|5|+|6 *)
Definition signs0 := text_ops [49] [43; 50] [51] [52; 43] [53] [43] [54].
Definition signs1 := text_ops [49; 57] [43; 50] [51] [52; 43] [53] [43] [54].
Definition signs2 := text_ops [49; 57] [43; 50] [51; 56] [52; 43] [53] [43] [54].
(** 1|2|3|4|5|6|7, then 19|2|3|4|5|6|7 *)
Definition digits0 := text_ops [49] [50] [51] [52] [53] [54] [55].
Definition digits1 := text_ops [49; 57] [50] [51] [52] [53] [54] [55].
Definition y0 := typing signs0.
Definition y1 := typed 1 57 y0.
Definition y2 := typed 5 56 y1.
Definition z0 := typing digits0.
Definition z1 := typed 1 57 z0.
Definition tree_of (ops : list (zop N)) : raz_tree N count :=
  match zrun raz_new ops with
  | Ok (_, z) => match unfocus z with Ok t => t | _ => RazTree (Count 0) None end
  | _ => RazTree (Count 0) None
  end.
Definition st0 := Eval vm_compute in tree_of signs0.
Definition st1 := Eval vm_compute in tree_of signs1.
Definition st2 := Eval vm_compute in tree_of signs2.
Definition dt0 := Eval vm_compute in tree_of digits0.
Definition dt1 := Eval vm_compute in tree_of digits1.
Lemma typed_reached : forall ops t, Forall zop_ok ops -> (exists os z, zrun raz_new ops = Ok (os, z) /\ unfocus z = Ok t) -> tree_reached (E := N) (M := count) false t.
Proof. intros ops t F (os & z & R & U). eapply TR_unfocus; [|exact U]. eapply zrun_reached; [exact F|apply RR_new|exact R]. Qed.
Lemma texts_reached : Forall (fun t => tree_reached false t) [st2; st1; st0] /\ Forall (fun t => tree_reached false t) [dt1; dt0].
Proof.
  assert (X : forall ops t, forallb (fun o => match o with OArchL l _ => (0 <? l) | OPushL _ => true | _ => false end) ops = true ->
    (exists os z, zrun raz_new ops = Ok (os, z) /\ unfocus z = Ok t) -> tree_reached (E := N) (M := count) false t).
  { intros ops t B. apply typed_reached. rewrite forallb_forall in B. apply Forall_forall. intros o Ho. specialize (B o Ho).
    destruct o; try discriminate; simpl; auto. apply N.ltb_lt in B. lia. }
  split; repeat (apply Forall_cons; [|]); try apply Forall_nil.
  - apply (X signs2); [reflexivity|]. do 2 eexists. split; vm_compute; reflexivity.
  - apply (X signs1); [reflexivity|]. do 2 eexists. split; vm_compute; reflexivity.
  - apply (X signs0); [reflexivity|]. do 2 eexists. split; vm_compute; reflexivity.
  - apply (X digits1); [reflexivity|]. do 2 eexists. split; vm_compute; reflexivity.
  - apply (X digits0); [reflexivity|]. do 2 eexists. split; vm_compute; reflexivity.
Qed.
Lemma texts_orderly : orderly_points (map contents [st2; st1; st0]) /\ orderly_points (map contents [dt1; dt0]).
Proof.
  assert (ND : forall l : list (option name), (if nodup_eqb l then True else False) -> NoDup l).
  { induction l as [|a l IH]; intros H; [constructor|]. cbn [nodup_eqb] in H.
    destruct (existsb (fun b => if oname_eq_dec a b then true else false) l) eqn:Ex; [contradiction|].
    constructor; [|now apply IH]. intros I. rewrite <- not_true_iff_false in Ex. apply Ex, existsb_exists.
    exists a. split; [exact I|]. now destruct (oname_eq_dec a a). }
  cbn [map orderly_points].
  repeat match goal with |- _ /\ _ => split end; try exact I.
  all: try (intros p Hp; vm_compute in Hp; repeat (destruct Hp as [<-|Hp]; [discriminate|]); contradiction).
  all: try (apply ND; vm_compute; exact I).
  all: intros n H; first [exact I|left; exact H].
Qed.
Lemma text_reads : forall (st : store (level * list N) (tree_data N count)) h t k,
  match st_read k h st with Ok (t', _) => Some t' | _ => None end = Some t -> reads st h t.
Proof.
  intros st h t k H. destruct (st_read k h st) as [[t' st']| |] eqn:Rd; try discriminate. injection H as ->.
  exists k. rewrite Rd. now destruct (read_rep k st h t st' Rd) as [-> _].
Qed.
Lemma texts_read : Forall2 (fun c t => tree_reads (within HOME (fst c)) (snd c) t) [y2; y1; y0] [st2; st1; st0] /\
  Forall2 (fun c t => tree_reads (within HOME (fst c)) (snd c) t) [z1; z0] [dt1; dt0].
Proof.
  split; repeat (apply Forall2_cons; [split; [vm_compute; reflexivity|apply (text_reads _ _ _ 80); vm_compute; reflexivity]|]); apply Forall2_nil.
Qed.
Definition tokened (x : tstate) (cs : tcells) (tab : ttable) : tevent * ttable :=
  match tokens 80 (snd x) (fst x) cs tab with
  | Ok (y, cs', _, tab', lg) => (WEvent (fst x) cs (snd x) y cs' lg, tab')
  | _ => (WEvent (fst x) cs (snd x) sa_new cs [], tab)
  end.
Fixpoint runs_of (xs : list tstate) : list tevent * ttable :=
  match xs with
  | [] => ([], no_wentries)
  | x :: r =>
      let (h, tab) := runs_of r in
      let (e, tab) := tokened x (match h with e :: _ => w_after e | [] => fun _ => None end) tab in
      (e :: h, tab)
  end.
Lemma tokened_ran : forall x cs h tab, (match tokens 80 (snd x) (fst x) cs tab with Ok _ => true | _ => false end) = true ->
  w_ran tokens h tab -> w_ran tokens (fst (tokened x cs tab) :: h) (snd (tokened x cs tab)).
Proof.
  intros x cs h tab G H. unfold tokened. destruct (tokens 80 (snd x) (fst x) cs tab) as [[[[[y cs'] tr] tab'] lg]| |] eqn:Q; try discriminate.
  exact (w_ran_more tokens h tab 80 (fst x) cs (snd x) y cs' tr tab' lg H Q).
Qed.
Lemma tokened_was : forall x cs tab, w_before (fst (tokened x cs tab)) = cs /\ w_trees (fst (tokened x cs tab)) = fst x /\ w_given (fst (tokened x cs tab)) = snd x.
Proof. intros x cs tab. unfold tokened. now destruct (tokens 80 (snd x) (fst x) cs tab) as [[[[[y cs'] tr] tab'] lg]| |]. Qed.
Lemma runs_undisturbed : forall p xs, w_undisturbed p (fst (runs_of xs)).
Proof.
  intros p. induction xs as [|x xs IH]; [exact I|]. cbn [runs_of]. destruct (runs_of xs) as [h tab]. cbn [fst] in *.
  match goal with |- context [tokened x ?c tab] => pose proof (proj1 (tokened_was x c tab)) as B; destruct (tokened x c tab) as [e tab'] end.
  cbn [fst] in *. cbn [w_undisturbed]. split; [exact IH|]. destruct h as [|e' h]; [exact I|]. intros n. now rewrite B.
Qed.
Lemma runs_read : forall xs ts, Forall2 (fun c t => tree_reads (within HOME (fst c)) (snd c) t) xs ts ->
  Forall2 (fun e t => tree_reads (within HOME (w_trees e)) (w_given e) t) (fst (runs_of xs)) ts.
Proof.
  intros xs ts F. induction F as [|x t xs ts H F IH]; [apply Forall2_nil|]. cbn [runs_of]. destruct (runs_of xs) as [h tab]. cbn [fst] in *.
  match goal with |- context [tokened x ?c tab] => pose proof (proj2 (tokened_was x c tab)) as B; destruct (tokened x c tab) as [e tab'] end.
  cbn [fst] in *. apply Forall2_cons; [|exact IH]. destruct B as [-> ->]. exact H.
Qed.
Fixpoint runs_fine (xs : list tstate) : bool :=
  match xs with
  | [] => true
  | x :: r =>
      runs_fine r &&
      match tokens 80 (snd x) (fst x) (match fst (runs_of r) with e :: _ => w_after e | [] => fun _ => None end) (snd (runs_of r)) with
      | Ok _ => true
      | _ => false
      end
  end.
Lemma runs_ran : forall xs, runs_fine xs = true -> w_ran tokens (fst (runs_of xs)) (snd (runs_of xs)).
Proof.
  induction xs as [|x xs IH]; [intros _; apply w_ran_none|]. cbn [runs_fine runs_of]. intros H. apply andb_true_iff in H. destruct H as [H1 H2].
  specialize (IH H1). destruct (runs_of xs) as [h tab]. cbn [fst snd] in *. pose proof (tokened_ran x _ h tab H2 IH) as R.
  now destruct (tokened x _ tab) as [e tab'].
Qed.
(** Reading a stack out of its cells. *)
Fixpoint get_stack (k : nat) (cs : tcells) (h : option (shead (level * list token))) : option (stack (level * list token)) :=
  match k with
  | O => None
  | S k =>
      match h with
      | None => Some None
      | Some (HPut e h) => option_map (fun l => Some (Head None e l)) (get_stack k cs h)
      | Some (HCell a) => match cs a with Some (e, h) => option_map (fun l => Some (Head (Some (snd a)) e l)) (get_stack k cs h) | None => None end
      end
  end.
Lemma stack_by : forall k cs h l, get_stack k cs h = Some l -> stack_reads cs h l.
Proof.
  induction k as [|k IH]; intros cs h l H; [discriminate|]. cbn [get_stack] in H. destruct h as [[e h|a]|].
  - destruct (get_stack k cs h) eqn:Q; [|discriminate]. injection H as <-. constructor. auto.
  - destruct (cs a) as [[e h]|] eqn:Qa; [|discriminate]. destruct (get_stack k cs h) eqn:Q; [|discriminate]. injection H as <-.
    destruct a as [p n]. econstructor; eauto.
  - injection H as <-. constructor.
Qed.
(** All of it at first; then, with 9 after the 1, and with 8 after the 3, six and seven
    of the thirteen nodes; none but the root without a change. *)
Example C116_case : runs_fine [y2; y2; y1; y0] = true /\ map (fun e => length (w_entered e)) (fst (runs_of [y2; y2; y1; y0])) = [1; 7; 6; 13]%nat.
Proof. split; vm_compute; reflexivity. Qed.
Lemma texts_spoken : Forall (fun t => Forall in_lang (elts (contents t))) [st2; st1; st0; dt1; dt0].
Proof.
  assert (B : forall l, forallb (fun c => is_digit c || (c =? 43))%bool l = true -> Forall in_lang l).
  { intros l H. rewrite forallb_forall in H. apply Forall_forall. intros c Ic. specialize (H c Ic). apply orb_true_iff in H.
    destruct H as [H|H]; [now left|]. right. left. now apply N.eqb_eq. }
  repeat (apply Forall_cons; [apply B; vm_compute; reflexivity|]). apply Forall_nil.
Qed.
(** The bound, for the second run: the 9, up to the point 1:3. *)
Example C116_case_bound : exists pre mid mid' post e hist, contents st0 = pre ++ mid ++ post /\ contents st1 = pre ++ mid' ++ post /\
  fst (runs_of [y1; y0]) = e :: hist /\
  (length (w_entered e) <= 1 + 2 * (seen_from_right pre + length (marks mid') + seen_from_left 0 post) /\
  1 + 2 * (seen_from_right pre + length (marks mid') + seen_from_left 0 post) = 9)%nat.
Proof.
  exists (firstn 1 (contents st0)), (firstn 1 (skipn 1 (contents st0))), (firstn 2 (skipn 1 (contents st1))), (skipn 2 (contents st0)).
  exists (hd (fst (tokened y0 (fun _ => None) no_wentries)) (fst (runs_of [y1; y0]))), (tl (fst (runs_of [y1; y0]))).
  split; [vm_compute; reflexivity|]. split; [vm_compute; reflexivity|].
  assert (Q : fst (runs_of [y1; y0]) = hd (fst (tokened y0 (fun _ => None) no_wentries)) (fst (runs_of [y1; y0])) :: tl (fst (runs_of [y1; y0]))).
  { cbn [runs_of]. destruct (tokened y0 _ _) as [e0 tab0]. now destruct (tokened y1 _ _) as [e1 tab1]. }
  split; [exact Q|]. split; [|vm_compute; reflexivity].
  pose proof texts_spoken as Sp. inversion Sp as [|? ? _ Sp1]. inversion Sp1 as [|? ? L1 Sp2]. inversion Sp2 as [|? ? L0 _].
  refine (proj1 (C116_rerun count (count_meta N) eqCN HOME TOKENS st0 st1 [] _ (firstn 1 (skipn 1 (contents st0))) _ _ _ _ (snd (runs_of [y1; y0])) _ _ _ _ L0 L1 _ _ _ _)).
  - exact (Forall_inv_tail (proj1 texts_reached)).
  - exact (orderly_tail [contents st2] _ (proj1 texts_orderly)).
  - vm_compute. reflexivity.
  - vm_compute. reflexivity.
  - exists [43; 50], (skipn 4 (contents st0)). split; [vm_compute; reflexivity|now left].
  - rewrite <- Q. apply runs_ran. vm_compute. reflexivity.
  - rewrite <- Q. apply runs_undisturbed.
  - rewrite <- Q. apply runs_read. exact (proj2 (Forall2_both _ _ _ _ _ _ _ (proj1 texts_read))).
Qed.
Example C115_case : NoDup (node_names st2) /\
  tokenize_vec (vec_iface token) (elts (contents st2)) = Ok [Num 19; OpPlus; Num 2384; OpPlus; Num 5; OpPlus; Num 6] /\
  exists e hist a, fst (runs_of [y2; y2; y1; y0]) = e :: hist /\ tokenize_tree (astack_iface token) st2 = Ok a /\ astack_reads (w_after e) (w_result e) a.
Proof.
  split; [vm_compute; repeat (constructor; [simpl; intuition discriminate|]); constructor|]. split; [vm_compute; reflexivity|].
  exists (hd (fst (tokened y0 (fun _ => None) no_wentries)) (fst (runs_of [y2; y2; y1; y0]))), (tl (fst (runs_of [y2; y2; y1; y0]))). eexists.
  split; [|split; [vm_compute; reflexivity|]].
  - change (runs_of [y2; y2; y1; y0]) with (let (h, tab) := runs_of [y2; y1; y0] in
      let (e, tab) := tokened y2 (match h with e :: _ => w_after e | [] => fun _ => None end) tab in (e :: h, tab)).
    destruct (runs_of [y2; y1; y0]) as [h tab]. now destruct (tokened y2 _ _) as [e1 tab1].
  - split; [vm_compute; reflexivity|]. apply (stack_by 80). vm_compute. reflexivity.
Qed.
(** A character that is none of the language. *)
Example C115_case_panic : tokens 80 (snd (typed 5 56 (typed 1 99 y0))) (fst (typed 5 56 (typed 1 99 y0))) (fun _ => None) no_wentries = Panic "invalid char".
Proof. vm_compute. reflexivity. Qed.

(** Without a sign the number goes on and the rest of the text runs again. *)
Theorem C116_no_sign_refuted : exists (t t' : raz_tree N count) pre mid mid' post e hist tab,
  Forall (fun t => tree_reached false t) [t'; t] /\ orderly_points (map contents [t'; t]) /\
  contents t = pre ++ mid ++ post /\ contents t' = pre ++ mid' ++ post /\
  Forall in_lang (elts (contents t)) /\ Forall in_lang (elts (contents t')) /\
  w_ran tokens (e :: hist) tab /\ w_undisturbed TOKENS (e :: hist) /\
  Forall2 (fun e t => tree_reads (within HOME (w_trees e)) (w_given e) t) (e :: hist) [t'; t] /\
  length (w_entered e) = 13%nat /\ (1 + 2 * (seen_from_right pre + length (marks mid') + seen_from_left 0 post) = 7)%nat.
Proof.
  exists dt0, dt1, (firstn 1 (contents dt0)), [], (firstn 1 (skipn 1 (contents dt1))), (skipn 1 (contents dt0)).
  exists (hd (fst (tokened y0 (fun _ => None) no_wentries)) (fst (runs_of [z1; z0]))), (tl (fst (runs_of [z1; z0]))), (snd (runs_of [z1; z0])).
  assert (Q : fst (runs_of [z1; z0]) = hd (fst (tokened y0 (fun _ => None) no_wentries)) (fst (runs_of [z1; z0])) :: tl (fst (runs_of [z1; z0]))).
  { cbn [runs_of]. destruct (tokened z0 _ _) as [e0 tab0]. now destruct (tokened z1 _ _) as [e1 tab1]. }
  pose proof texts_spoken as Sp. do 3 apply Forall_inv_tail in Sp. inversion Sp as [|? ? L1 Sp1]. inversion Sp1 as [|? ? L0 _].
  split; [exact (proj2 texts_reached)|]. split; [exact (proj2 texts_orderly)|].
  split; [vm_compute; reflexivity|]. split; [vm_compute; reflexivity|]. split; [exact L0|]. split; [exact L1|].
  split; [rewrite <- Q; apply runs_ran; vm_compute; reflexivity|]. split; [rewrite <- Q; apply runs_undisturbed|].
  split; [rewrite <- Q; apply runs_read; exact (proj2 texts_read)|]. split; vm_compute; reflexivity.
Qed.
Print Assumptions C116_no_sign_refuted.
