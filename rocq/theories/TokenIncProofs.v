(** * Proofs about the memoised tokenizer over stores. *)

From Verif Require Import Base BaseFacts Spec SpecRaz StackModel AStackModel LevelTreeModel TreeSpec TreeProofs TreeCursorModel RazMetaModel RazModel AccumModel AccumScripts
  ExampleModel ExampleSpec AdderProofs MemoModel MemoSpec MemoProofs MemoCost MemoRaz MemoLR MemoHistory LrReset RazView RazScripts RazProofs RazReach StoreModel StoreSpec StoreScripts
  StoreProofs IncModel IncSpec IncProofs IncCost ListIncModel ListIncSpec ListIncProofs ListIncCost TokenIncModel.

(** A step after the fold. *)
Section After.
Context {T A C K R X Y Z : Type} (run : nat -> X -> wm T A C K R Y) (fin : Y -> res Z).
Notation run' := (fun k x => w_bind (run k x) (fun a => w_lift (fin a))).
Definition under (e : wevent T A C X Z) (e' : wevent T A C X Y) : Prop :=
  w_trees e' = w_trees e /\ w_before e' = w_before e /\ w_given e' = w_given e /\ w_after e' = w_after e /\ w_entered e' = w_entered e /\
  fin (w_result e') = Ok (w_result e).
Lemma ran_under hist tab : w_ran run' hist tab -> exists hist', w_ran run hist' tab /\ Forall2 under hist hist'.
Proof.
  induction 1 as [|h tab k st cs x y cs' tr tab' lg R0 (h' & Rh & F) H]; [exists []; split; [apply w_ran_none|constructor]|].
  apply w_bind_Ok in H. destruct H as (a & cs1 & tr1 & tab1 & lg1 & tr2 & lg2 & H1 & H2 & -> & ->).
  unfold w_lift in H2. apply bind_Ok in H2. destruct H2 as (z & Hz & Q). inv Q. rewrite app_nil_r.
  eexists. split; [eapply w_ran_more; eassumption|]. constructor; [|exact F]. repeat split. exact Hz.
Qed.
Lemma undisturbed_under p hist hist' : Forall2 under hist hist' -> w_undisturbed p hist -> w_undisturbed p hist'.
Proof.
  induction 1 as [|e e' h h' U F IH]; [auto|]. cbn [w_undisturbed]. intros [U1 U2]. split; [auto|].
  destruct F as [|f f' r r' U' F']; [exact I|]. destruct U as (_ & -> & _), U' as (_ & _ & _ & -> & _). exact U2.
Qed.
End After.

Lemma stack_arc_reads {Nsp : here} {E S : Type} (meta : level -> S) (cs : wcells (body (S * list E))) a p lv n : astack_reads cs a p -> chold cs (snd (stack_arc meta a (lv, n))) ->
  astack_reads cs (fst (stack_arc meta a (lv, n))) (snd (as_archive p n (meta lv))).
Proof.
  intros [H1 H2]. unfold stack_arc, as_archive, as_archive_with_capacity. cbn [fst snd]. rewrite <- H1.
  destruct (sa_current a) as [|e v] eqn:Ec; [intros _; split; [cbn [fst snd]; congruence|exact H2]|]. destruct n as [n|]; intros Q; (split; [reflexivity|]); cbn [snd sa_archived archived fst].
  - constructor 3 with (1 := Q _ (or_introl eq_refl)). exact H2.
  - constructor. exact H2.
Qed.

Section Tokenize.
Context {M : Type} {RM : RazMeta N M} (eqD : forall x y : tree_data N M, {x = y} + {x <> y}) {Nsp : here}.
Notation C := (body (level * list token)).
Notation cells := (wcells C).
Notation run := (tok_fold eqD).
Definition tok_arc (a : tok_state) (m : level * option name) : tok_state * list (loc * C) :=
  match a with
  | Ok (ts, part) => (Ok (fst (stack_arc (fun l => l) ts m), part), snd (stack_arc (fun l => l) ts m))
  | _ => (a, [])
  end.
Lemma tok_arc_eq a m (st : store (level * list N) (tree_data N M)) cs tb :
  tok_archive a m st cs tb = Ok (fst (tok_arc a m), puts cs (snd (tok_arc a m)), map cellseen (snd (tok_arc a m)), tb, []).
Proof.
  destruct a as [[ts part]|s|]; [|reflexivity|reflexivity]. destruct m as [lv [n|]]; unfold tok_archive, tok_arc, was_archive, stack_arc;
    cbn [fst snd]; destruct (sa_current ts); reflexivity.
Qed.
Lemma tok_arc_at a lv n x : In x (snd (tok_arc a (lv, n))) -> exists m, n = Some m /\ fst x = (path, m).
Proof.
  destruct a as [[ts part]|s|]; [|intros []|intros []]. unfold tok_arc, stack_arc. cbn [fst snd].
  destruct (sa_current ts); [intros []|]. destruct n as [n|]; [|intros []]. intros [<-|[]]. eauto.
Qed.
Lemma tok_arc_one a m (cs : cells) : chold (puts cs (snd (tok_arc a m))) (snd (tok_arc a m)).
Proof.
  destruct a as [[ts part]|s|]; [|intros x []|intros x []]. destruct m as [lv [n|]]; unfold tok_arc, stack_arc; cbn [fst snd];
    destruct (sa_current ts); try apply one_hold; intros x [].
Qed.

(** What the accumulator reads as. *)
Definition tok_reads (cs : cells) (a : tok_state) (p : res (astack token level * option N)) : Prop :=
  match a, p with
  | Ok (h, x), Ok (s, y) => astack_reads cs h s /\ x = y
  | Panic m, Panic m' => m = m'
  | Fuel, Fuel => True
  | _, _ => False
  end.
Lemma push_reads (cs : cells) h s (e : token) : astack_reads cs h s -> astack_reads cs (sa_push h e) (as_push s e).
Proof. intros [H1 H2]. split; [|exact H2]. cbn [sa_push sa_current as_push current]. now rewrite H1. Qed.
Lemma step_reads (cs : cells) h s part c : astack_reads cs h s ->
  tok_reads cs (tokenize_step tok_iface (h, part) c) (tokenize_step (astack_iface token) (s, part) c).
Proof.
  intros H. unfold tokenize_step. destruct (to_digit c) as [d|].
  - set (b := match part with None => d | Some p => u32_madd p 10 d end). destruct (99999 <? b)%N.
    + split; [|reflexivity]. now apply push_reads.
    + split; [exact H|reflexivity].
  - assert (H' : astack_reads cs (match part with Some num => sa_push h (Num num) | None => h end)
        (match part with Some num => as_push s (Num num) | None => s end)) by (destruct part; [now apply push_reads|exact H]).
    change (@seq_push token _ tok_iface) with (@sa_push token level). change (@seq_push token _ (astack_iface token)) with (@as_push token level).
    unfold push_op. destruct (c =? 43)%N; [|destruct (c =? 44)%N; [|reflexivity]].
    + split; [|reflexivity]. now apply (push_reads cs _ _ OpPlus).
    + split; [exact H'|reflexivity].
Qed.

Theorem next_tokenize free (t : raz_tree N M) : tree_reached free t -> NoDup (node_names t) ->
  exists k0, forall k hist tab st cs h, k0 <= k -> w_ran (tokenize_inc eqD) hist tab -> tree_reads st h t ->
  match tokenize_tree (astack_iface token) t with
  | Ok ts => exists y cs' tr tab' lg, tokenize_inc eqD k h st cs tab = Ok (y, cs', tr, tab', lg) /\ astack_reads cs' y ts /\
      forall b, fst b <> path \/ ~ In (snd b) (node_names t) -> cs' b = cs b
  | Panic m => tokenize_inc eqD k h st cs tab = Panic m
  | Fuel => tokenize_inc eqD k h st cs tab = Fuel
  end.
Proof.
  intros Re Nd.
  assert (Nx : exists k0, forall k hist tab st cs h, k0 <= k -> w_ran run hist tab -> tree_reads st h t ->
    exists y cs' tr tab' lg, run k h st cs tab = Ok (y, cs', tr, tab', lg) /\
      tok_reads cs' y (rt_fold_lr_meta t (Ok (as_new, None)) (fun a c => do st <- a; tokenize_step (astack_iface token) st c)
        (fun a m => do st <- a; Ok (tokenize_meta (astack_iface token) st m))) /\
      forall b, fst b <> path \/ ~ In (snd b) (node_names t) -> cs' b = cs b).
  { apply (next_list eqD eq_tok_cell eq_tok_state tok_push tok_archive tok_arc (Ok (sa_new, None)) tok_arc_eq tok_arc_at tok_arc_one tok_reads) with (free := free); auto.
    - intros cs. split; [split; constructor|reflexivity].
    - intros cs a p c H. destruct a as [[h x]|m|], p as [[s y]|m'|]; try contradiction; [|exact H|exact H].
      destruct H as [H <-]. cbn [tok_push bind]. now apply step_reads.
    - intros cs a p lv n H Q. destruct a as [[h x]|m|], p as [[s y]|m'|]; try contradiction; [|exact H|exact H].
      destruct H as [H <-]. cbn [tok_arc fst bind tokenize_meta tok_reads] in *. split; [|reflexivity]. exact (stack_arc_reads (fun l => l) cs h s lv n H Q). }
  destruct Nx as (k0 & Nx). exists k0. intros k hist tab st cs h Hk Rn Rd. destruct (ran_under _ _ _ _ Rn) as (hist' & Rn' & _).
  destruct (Nx k hist' tab st cs h Hk Rn' Rd) as (y & cs' & tr & tab' & lg & E1 & E2 & E3).
  unfold tokenize_tree. change (@if_new token _ (astack_iface token)) with (@as_new token level).
  set (z := rt_fold_lr_meta _ _ _ _) in *. unfold tokenize_inc. rewrite (w_bind_eq _ _ _ _ _ _ _ _ _ _ E1).
  clearbody z. clear Nx. destruct y as [[hs x]|m|], z as [[s y]|m'|]; try contradiction; cbn [bind tok_final w_lift]; [|cbn [tok_reads] in E2; subst; reflexivity|reflexivity].
  destruct E2 as [E2 <-]. do 5 eexists. split; [reflexivity|]. split; [|exact E3].
  unfold tokenize_final. destruct x; [|exact E2]. now apply push_reads.
Qed.

(** ** What a rerun enters. *)
Definition tok_plain (a : tok_state) (d : tree_data N M) (lv : level) (n : option name) : tok_state := plain (lfn tok_push tok_arc) a d lv n.
Definition tok_fn (a : tok_state) (lv : level) (n : option name) : tok_state := fst (tok_arc a (lv, n)).
Notation atoms := (list (atom N level)).
Notation go := (MemoLR.go tok_plain tok_fn).
Definition speaks (l : atoms) : Prop := forall c, In (Elt c) l -> in_lang c.
Lemma elts_speak l : Forall in_lang (elts l) -> speaks l.
Proof.
  induction l as [|[c|m n] l IH]; intros F x H; [destruct H| |].
  - cbn [elts] in F. inversion F as [|? ? Fc Fl]. destruct H as [H|H]; [|now apply IH]. injection H as <-. exact Fc.
  - destruct H as [H|H]; [discriminate|]. now apply IH.
Qed.

Lemma push_lang a c : in_lang c -> exists ts part, tokenize_step tok_iface a c = Ok (ts, part).
Proof.
  intros L. destruct a as [ts part]. unfold tokenize_step. rewrite to_digit_is. destruct L as [L0|[L0|L0]]; [rewrite L0|subst c|subst c].
  - destruct (99999 <? _)%N; eauto.
  - cbn. eauto.
  - cbn. eauto.
Qed.
Lemma pushes_lang v : forall a, (exists ts part, a = Ok (ts, part)) -> Forall in_lang v -> exists ts part, fold_left tok_push v a = Ok (ts, part).
Proof.
  induction v as [|c v IH]; intros a (ts & part & ->) F; [cbn; eauto|]. inv F. cbn [fold_left]. apply IH; [|assumption].
  cbn [tok_push bind]. now apply push_lang.
Qed.
(** Once an operator is read the rest only depends on what follows it. *)
Lemma pushes_busy v : forall ts ts' part, sa_current ts <> [] -> sa_current ts' <> [] -> Forall in_lang v ->
  exists h h' p, fold_left tok_push v (Ok (ts, part)) = Ok (h, p) /\ fold_left tok_push v (Ok (ts', part)) = Ok (h', p) /\
    sa_current h <> [] /\ sa_current h' <> [].
Proof.
  assert (B : forall (h : sastack token level) x, sa_current (sa_push h x) <> []) by (intros h x; cbn [sa_push sa_current]; destruct (sa_current h); discriminate).
  induction v as [|c v IH]; intros ts ts' part H H' F; [cbn; eauto 8|]. inv F. cbn [fold_left tok_push bind].
  unfold tokenize_step. rewrite to_digit_is. destruct (is_digit c) eqn:D.
  - destruct (99999 <? _)%N; apply IH; auto; apply B.
  - match goal with L : in_lang c |- _ => destruct L as [L|[L|L]]; [congruence|subst c|subst c] end.
    + cbn -[sa_push fold_left]. destruct part; apply IH; auto; apply B.
    + cbn -[sa_push fold_left]. destruct part; apply IH; auto; apply B.
Qed.
Lemma plus_settles v a a' m n : In 43%N v -> Forall in_lang v -> (exists ts part, a = Ok (ts, part)) -> (exists ts part, a' = Ok (ts, part)) ->
  fst (tok_arc (fold_left tok_push v a) (m, Some n)) = fst (tok_arc (fold_left tok_push v a') (m, Some n)).
Proof.
  intros I F A A'. apply in_split in I. destruct I as (v1 & v2 & ->). apply Forall_app in F. destruct F as [F1 F2]. inv F2.
  rewrite !fold_left_app. destruct (pushes_lang v1 a A F1) as (ts & part & ->). destruct (pushes_lang v1 a' A' F1) as (ts' & part' & ->).
  cbn [fold_left]. cbn -[sa_push fold_left tok_arc].
  assert (B : forall (h : sastack token level) x, sa_current (sa_push h x) <> []) by (intros h x; cbn [sa_push sa_current]; destruct (sa_current h); discriminate).
  match goal with |- fst (tok_arc (fold_left _ _ (Ok (sa_push ?x OpPlus, _))) _) = fst (tok_arc (fold_left _ _ (Ok (sa_push ?y OpPlus, _))) _) =>
    destruct (pushes_busy v2 (sa_push x OpPlus) (sa_push y OpPlus) None) as (h & h' & p & -> & -> & C1 & C2); auto end.
  cbn [tok_arc stack_arc fst snd]. unfold stack_arc. cbn [fst snd]. destruct (sa_current h); [congruence|]. now destruct (sa_current h').
Qed.
Lemma go_end l : forall s a cur v m n, (exists ts part, a = Ok (ts, part)) -> Forall in_lang cur -> speaks l ->
  exists a', (exists ts part, a' = Ok (ts, part)) /\
    go s a cur (l ++ map Elt v ++ [Mark m n]) = (n, fst (tok_arc (fold_left tok_push v a') (m, n))).
Proof.
  induction l as [|[c|m1 n1] l IH]; intros s a cur v m n A F Sp.
  - exists (fold_left tok_push cur a). split; [now apply pushes_lang|].
    assert (Q : forall w cur, go s a cur (map Elt w ++ [Mark m n]) = go s a (cur ++ w) [Mark m n]).
    { induction w as [|x w IH]; intros c; [now rewrite app_nil_r|]. cbn [map app MemoLR.go]. rewrite IH. now rewrite <- app_assoc. }
    cbn [app]. rewrite Q. cbn [MemoLR.go]. unfold tok_fn, tok_plain, plain, lfn. cbn [fst]. now rewrite fold_left_app.
  - cbn [app MemoLR.go]. apply IH; [exact A| |].
    + apply Forall_app. split; [exact F|]. constructor; [|constructor]. apply Sp. now left.
    + intros x Ix. apply Sp. now right.
  - cbn [app MemoLR.go]. apply IH; [|constructor|].
    + destruct (pushes_lang cur a A F) as (ts & part & Q). unfold tok_fn, tok_plain, plain, lfn. cbn [fst]. rewrite Q.
      cbn [tok_arc fst]. eauto.
    + intros x Ix. apply Sp. now right.
Qed.

(** A sign among the characters between the change and the next archive point. *)
Definition plus_next (l : atoms) : Prop := exists v r, l = map Elt v ++ r /\ In 43%N v.
Lemma plus_first v : forall w (m : level) n (r l : atoms), map Elt w ++ Mark m n :: r = map Elt v ++ l -> forall c : N, In c v -> In c w.
Proof.
  induction v as [|x v IH]; intros w m n r l Q c []; destruct w as [|y w]; cbn [map app] in Q; try discriminate; inv Q.
  - now left.
  - right. eapply IH; eassumption.
Qed.
Lemma plus_settled s0 pre mid mid' post : speaks (pre ++ mid ++ post) -> speaks (pre ++ mid' ++ post) ->
  (forall p, In p (marks post) -> snd p <> None) -> plus_next post ->
  settled tok_plain tok_fn s0 (Ok (sa_new, None)) pre mid mid' post.
Proof.
  intros S1 S2 Na (v0 & r0 & Q0 & I0). apply settled_first. intros v m n r Q.
  assert (Iv : In 43%N v) by (eapply plus_first; [rewrite <- Q; exact Q0|exact I0]).
  assert (Fv : Forall in_lang v).
  { apply Forall_forall. intros c Ic. apply S1. rewrite !in_app_iff. right. right. rewrite Q. rewrite in_app_iff. left. now apply in_map. }
  assert (Nn : exists k, n = Some k).
  { destruct n as [k|]; [eauto|]. exfalso. apply (Na (m, None)); [|reflexivity]. rewrite Q, marks_app, in_app_iff. right. now left. }
  destruct Nn as (k & ->).
  assert (Sh : forall w, pre ++ w ++ map Elt v ++ [Mark m (Some k)] = (pre ++ w) ++ map Elt v ++ [Mark m (Some k)]) by (intros w; now rewrite <- !app_assoc).
  rewrite !Sh.
  destruct (go_end (pre ++ mid) s0 (Ok (sa_new, None)) [] v m (Some k)) as (a & A & ->); [eauto|constructor| |].
  { intros c Ic. apply S1. rewrite app_assoc, in_app_iff. now left. }
  destruct (go_end (pre ++ mid') s0 (Ok (sa_new, None)) [] v m (Some k)) as (a' & A' & ->); [eauto|constructor| |].
  { intros c Ic. apply S2. rewrite app_assoc, in_app_iff. now left. }
  f_equal. now apply plus_settles.
Qed.
End Tokenize.

Section Again.
Context {M : Type} {RM : RazMeta N M} (eqD : forall x y : tree_data N M, {x = y} + {x <> y}) (q : list name) {Nsp : here}.
Theorem again_tokenize (t t' : raz_tree N M) (older : list (raz_tree N M)) pre mid mid' post e hist tab :
  Forall (fun t : raz_tree N M => tree_reached false t) (t' :: t :: older) -> orderly_points (map contents (t' :: t :: older)) ->
  contents t = pre ++ mid ++ post -> contents t' = pre ++ mid' ++ post ->
  speaks (contents t) -> speaks (contents t') -> plus_next post ->
  w_ran (tokenize_inc eqD) (e :: hist) tab -> w_undisturbed path (e :: hist) ->
  Forall2 (fun e t => tree_reads (within q (w_trees e)) (w_given e) t) (e :: hist) (t' :: t :: older) ->
  length (w_entered e) <= 1 + 2 * (seen_from_right pre + length (marks mid') + seen_from_left 0%N post) /\
  forall b, w_after e b = w_before e b \/ fst b = path /\ exists h, In h (w_entered e) /\ st_name h = Some (snd b).
Proof.
  intros Re Op W I S1 S2 P Rn U F. destruct (ran_under _ _ _ _ Rn) as (h' & Rn' & Fu).
  pose proof (undisturbed_under _ _ _ _ Fu U) as U'. inversion Fu as [|e1 e2 r1 r2 Ue Fr Q1 Q2]. subst.
  assert (F' : Forall2 (fun e t => tree_reads (within q (w_trees e)) (w_given e) t) (e2 :: r2) (t' :: t :: older)).
  { clear - F Fu. revert F. generalize (t' :: t :: older). induction Fu as [|a b x y Uab Fu IH]; intros l F; inversion F as [|? u ? lu Q1 Q2]; subst; [constructor|].
    constructor; [|now apply IH]. destruct Uab as (-> & _ & -> & _). exact Q1. }
  destruct Ue as (_ & Q1 & _ & Q2 & Q3 & _). rewrite <- Q1, <- Q2, <- Q3.
  apply (list_again eqD eq_tok_cell eq_tok_state q tok_push tok_archive tok_arc (Ok (sa_new, None)) tok_arc_eq tok_arc_at tok_arc_one
    t t' older pre mid mid' post e2 r2 tab Re Op W I); auto.
  apply plus_settled; [now rewrite <- W|now rewrite <- I| |exact P].
  intros p Ip. apply (proj1 (proj2 Op)). rewrite I, !marks_app, !in_app_iff. auto.
Qed.
End Again.
