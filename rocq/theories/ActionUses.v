(** * The computations of the examples as computations of an experiment. *)

From Verif Require Import Base BaseFacts Spec SpecRaz StackModel AStackModel StackScripts LevelTreeModel TreeCursorModel RazMetaModel RazModel
  TreeSpec RazView RazFrom RazScripts RazReach SkiplistModel AccumModel AccumScripts AccumProofs ExampleModel ExampleSpec ExampleProofs AdderProofs
  EvalModel EvalSpec EvalScripts EvalProofs EvalHistory ActionModel ActionSpec ActionProofs.

Section Uses.
Context {E M G S : Type} {RM : RazMeta E M}.
Notation eval := (eval_raz E M G).

Lemma elts_nonempty (l : list (atom E level)) : elts l <> [] -> l <> [].
Proof. now intros H ->. Qed.

Lemma filter_use free p (ev : eval) xs g dg ng : harness free ev xs g dg ng ->
  exists x, (forall r : S, use_filter p ev r = Ok (x, r)) /\
    (xs <> [] -> exists t', x = Some t' /\ elts (contents t') = filter p xs).
Proof.
  intros (t & T & R & <- & _). unfold use_filter, tree_fold_g, calling, ev_comp_tfoldg. rewrite T. cbn [unwrap bind].
  change (rt_fold_up_gauged t _ _) with (filter_tree p t).
  destruct (contents t) as [|a l] eqn:C.
  - exists None. rewrite (filter_empty free p t R C). split; [reflexivity|]. intros X. now elim X.
  - destruct (filter_elts_ok free p t R ltac:(congruence)) as (t' & F & _ & X). exists (Some t'). rewrite F.
    split; [reflexivity|]. intros _. exists t'. rewrite X, C. auto.
Qed.
Lemma reverse_use free (ev : eval) xs g dg ng : harness free ev xs g dg ng ->
  exists x, (forall r : S, use_reverse ev r = Ok (x, r)) /\
    (xs <> [] -> exists t', x = Some t' /\ elts (contents t') = rev xs).
Proof.
  intros (t & T & R & <- & _). unfold use_reverse, tree_fold_g, calling, ev_comp_tfoldg. rewrite T. cbn [unwrap bind].
  change (rt_fold_up_gauged t _ _) with (reverse_tree t).
  destruct (contents t) as [|a l] eqn:C.
  - exists None. rewrite (reverse_empty free t R C). split; [reflexivity|]. intros X. now elim X.
  - destruct (reverse_ok free t R ltac:(congruence)) as (t' & F & _ & X). exists (Some t'). rewrite F.
    split; [reflexivity|]. intros _. exists t'. rewrite X, C. split; [reflexivity|]. apply StackProofs.elts_rev.
Qed.
Lemma max_use free leb (ev : eval) xs g dg ng : total_preorder leb -> harness free ev xs g dg ng ->
  exists x, (forall r : S, use_max leb ev r = Ok (x, r)) /\
    (xs <> [] -> exists m, x = Some m /\ last_greatest leb xs m /\ max_native leb xs = Ok m).
Proof.
  intros TP (t & T & R & <- & _). unfold use_max, tree_fold_g, calling, ev_comp_tfoldg. rewrite T. cbn [unwrap bind].
  change (rt_fold_up_gauged t _ _) with (max_tree leb t).
  destruct (contents t) as [|a l] eqn:C.
  - destruct (max_none leb TP free t R C) as (F & _). exists None. rewrite F. split; [reflexivity|]. intros X. now elim X.
  - destruct (max_all leb TP free t R ltac:(congruence)) as (x & F & _ & N1 & _ & X). exists (Some x). rewrite F.
    split; [reflexivity|]. intros _. exists x. rewrite C in *. auto.
Qed.
Lemma to_string_use free {O N} {RN : RazMeta O N} (f : E -> O) (ev : eval) xs g dg ng : harness free ev xs g dg ng ->
  exists t' : raz_tree O N, (forall r : S, use_to_string f ev r = Ok (t', r)) /\ tree_reached free t' /\
    elts (contents t') = map f xs /\ forall r : S, use_to_string_vec f (xs, g) r = Ok (map f xs, r).
Proof.
  intros H. destruct (comps_agree free ev xs g dg ng H) as (_ & _ & _ & _ & _ & Mp).
  destruct (Mp O N RN f) as (t' & F & R & X). exists t'. split.
  - intros r. unfold use_to_string, mapper, calling. now rewrite F.
  - split; [exact R|]. split; [exact X|reflexivity].
Qed.
Lemma vec_uses (p : E -> bool) leb xs (g : G) (r : S) : total_preorder leb ->
  use_filter_vec p (xs, g) r = Ok (filter p xs, r) /\
  use_reverse_vec (xs, g) r = Ok (rev xs, r) /\
  match xs with
  | [] => use_max_vec leb (xs, g) r = Panic "unwrap on None"
  | _ => exists m, use_max_vec leb (xs, g) r = Ok (m, r) /\ last_greatest leb xs m
  end.
Proof.
  intros TP. split; [reflexivity|]. split; [reflexivity|]. destruct xs as [|x l]; [reflexivity|].
  eexists. split; [reflexivity|]. now apply (iter_max_last leb TP).
Qed.
Lemma find_max_use free leb (ev : eval) xs g dg ng : total_preorder leb -> harness free ev xs g dg ng ->
  exists x, (forall r : S, use_find_max leb ev r = Ok (x, r)) /\
    (forall r : S, use_find_max_vec leb (xs, g) r = Ok (x, r)) /\
    (xs <> [] -> exists m, x = Some m /\ last_greatest leb xs m).
Proof.
  intros TP H. destruct (comps_agree free ev xs g dg ng H) as (_ & _ & _ & Mx & _).
  exists (vec_comp_max leb (xs, g)). split; [|split].
  - intros r. unfold use_find_max, find_max, calling. now rewrite (Mx leb TP).
  - reflexivity.
  - intros Ne. destruct H as (t & T & R & <- & _).
    destruct (max_all leb TP free t R) as (x & _ & _ & _ & X & L).
    { intros C. rewrite C in Ne. now elim Ne. }
    exists x. unfold vec_comp_max. auto.
Qed.
Lemma to_list_use free {A} (IF : IFace E A) (ok : level -> Prop) (ev : eval) xs g dg ng :
  is_lifo IF ok -> (forall lv, (1 <= lv)%N -> ok lv) -> harness free ev xs g dg ng ->
  exists x, (forall r : S, use_to_list IF ev r = Ok (x, r)) /\ answers_as IF ok x (rev xs).
Proof.
  intros L W (t & T & R & <- & _). exists (to_list IF t). split.
  - intros r. unfold use_to_list, mfolder, calling, ev_comp_fold_meta. rewrite T. reflexivity.
  - intros ops Hops. exact (to_list_reached free IF ok t R L W ops Hops).
Qed.
Lemma unique_use free keqb my_hash debug pathlen (ev : eval) xs g dg ng :
  (forall a b : E, keqb a b = true <-> a = b) -> 0 < pathlen -> (debug = true -> pathlen < 64) -> harness free ev xs g dg ng ->
  exists s, (forall r : S, use_unique keqb my_hash debug pathlen ev r = Ok (s, r)) /\
    forall k, sk_get keqb my_hash debug s k = Ok (if existsb (keqb k) xs then Some tt else None).
Proof.
  intros K P1 P2 (t & T & R & <- & _). destruct (unique_elms_ok keqb my_hash debug K pathlen P1 P2 free t R) as (s & U & Get).
  exists s. split; [|exact Get]. intros r. unfold use_unique, hfolder, calling, ev_comp_fold_archive. rewrite T. cbn [unwrap bind].
  unfold unique_elms in U. rewrite U. reflexivity.
Qed.
End Uses.

Section Adder.
Context {M M' G S : Type} {RM : RazMeta N M} {RM' : RazMeta token M'}.
Lemma adder_use free (ev : eval_raz N M G) xs g dg ng (coord : G) : harness free ev xs g dg ng ->
  (forall t, ev_tree ev = Some t -> levels_in (fun lv => lv <= 64)%N (contents t)) -> Forall in_lang xs ->
  exists s v, (forall r : S, use_adder (M' := M') dg ng coord ev r = Ok (s, r)) /\ adder_vec xs = Ok v /\
    answers_as (astack_iface N) (fun lv => lv < u32_max)%N s (rev v).
Proof.
  intros (t & T & R & <- & _) Lv La. specialize (Lv t T).
  destruct (adder_vec_all _ La) as (ts & _ & _ & V).
  pose proof (adder_inc_ok (RM' := RM') free t R) as A. rewrite V in A.
  destruct A as (s & A & An).
  { eapply Forall_impl; [|exact Lv]. intros [l n]. cbn [fst]. unfold u32_max. lia. }
  exists s, (ref_parse ts). split; [|auto]. intros r.
  unfold adder_inc, tokenize_tree, parse_tree in A.
  unfold use_adder, compute2, mfolder, calling. unfold ev_comp_fold_meta at 1. rewrite T. cbn [unwrap bind].
  destruct (rt_fold_lr_meta t (Ok (if_new, None)) _ _) as [st|m|] eqn:F; cbn [bind] in A |- *; [|discriminate A|discriminate A].
  unfold ev_from_tail. destruct (from_at_tail _) as [tr|m|] eqn:Ta; cbn [bind] in A |- *; [|discriminate A|discriminate A].
  unfold ev_comp_fold_meta. cbn [ev_tree ev_set_tree ev_new unwrap bind]. rewrite A. reflexivity.
Qed.
Lemma fold_res_eq {X Y} (f : X -> Y -> res X) l : forall a, fold_left (fun r x => do s <- r; f s x) l a = (do s <- a; fold_res f l s).
Proof.
  induction l as [|x l IH]; intros a; cbn [fold_left fold_res]; [now destruct a|]. rewrite IH. now destruct a.
Qed.
Lemma adder_vec_use (coord : G) xs (g : G) : Forall in_lang xs ->
  exists v, (forall r : S, use_adder_vec coord (xs, g) r = Ok (v, r)) /\ adder_vec xs = Ok v.
Proof.
  intros La. destruct (adder_vec_all _ La) as (ts & _ & _ & V). exists (ref_parse ts). split; [|exact V]. intros r.
  unfold use_adder_vec, compute2, mfolder, calling, vec_comp_fold_meta. cbn [bind fst].
  unfold adder_vec, tokenize_vec in V. rewrite fold_res_eq. cbn [bind].
  destruct (fold_res (tokenize_step (vec_iface token)) xs (if_new, None)) as [st|m|]; cbn [bind] in V |- *; [|discriminate V|discriminate V].
  cbn [fst]. rewrite fold_res_eq. cbn [bind]. change (if_new (IFace := vec_iface N)) with (@nil N). rewrite V. reflexivity.
Qed.
End Adder.

(** ** A run on at least one element *)
Section Run.
Context {E G S : Type} {CG : Coord E G} {WS : WordRng S}.

Lemma fits_parts size dg ng changes o : fits size dg ng changes o ->
  (1 <= dg)%N /\ (1 <= ng)%N /\ (ng * dg < usize_mod)%N /\ (size + changes * hop_batch o < usize_max)%N /\
  (size / (ng * dg) + changes * (hop_batch o / (ng * dg) + 1) < usize_mod)%N /\
  ((1 <= size)%N \/ exists b, o = HAppend b).
Proof. unfold fits. intuition. Qed.

Lemma run_iraz {O} free size dg ng changes o (Q : E -> Prop) (comp : computor O (eval_raz E count G) S)
    (P : list E -> O -> Prop) (coord : G) (rng : S) :
  fits size dg ng changes o -> (forall g : G, Q (fst (gen_elt g))) ->
  (forall ev xs g, harness free ev xs g dg ng -> low ev -> Forall Q xs ->
     exists x, (forall r, comp ev r = Ok (x, r)) /\ (xs <> [] -> P xs x)) ->
  exists ds os r,
    test_seq (incremental_init ev_inc_init size dg ng coord) (iraz_editor o) comp changes rng = Ok (ds, os, r) /\
    length os = Datatypes.S (N.to_nat changes) /\
    forall i x, nth_error os i = Some x -> exists xs g,
      edited gen_elt gen_usize size coord o i = Some (xs, g) /\
      N.of_nat (length xs) = (size + N.of_nat i * hop_batch o)%N /\ P xs x.
Proof.
  intros F Qg C. destruct (fits_parts _ _ _ _ _ F) as (F1 & F2 & F3 & F4 & F5 & F6). destruct F as (Sz & _).
  destruct (experiment free size dg ng o Q comp (fun xs x => xs <> [] -> P xs x) changes coord rng F1 F2 F3 Qg C F4 F5 F6)
    as (ds & os & r & T & L & An).
  exists ds, os, r. split; [exact T|]. split; [exact L|]. intros i x N1. destruct (An i x N1) as (xs & g & Ed & Ln & Px).
  exists xs, g. split; [exact Ed|]. split; [exact Ln|]. apply Px. intros ->. cbn [length] in Ln. lia.
Qed.
End Run.
