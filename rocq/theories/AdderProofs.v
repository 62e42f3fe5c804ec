(** * Proofs about the adder example. *)

From Verif Require Import Base BaseFacts Spec SpecRaz StackModel AStackModel StackScripts StackProofs
  LevelTreeModel TreeCursorModel RazMetaModel RazModel TreeSpec TreeProofs CursorProofs RazView
  RazProofs RazUnfocus RazFocus RazIndex RazOps RazFrom RazScripts RazReach RazSession RazFacts
  AccumModel AccumScripts AccumProofs ExampleModel ExampleSpec ExampleProofs.

(** Tokens of the model and of the specification. *)
Definition tok_of (t : token) : tok := match t with Num n => TNum n | OpPlus => TPlus end.
Definition of_tok (t : tok) : token := match t with TNum n => Num n | TPlus => OpPlus end.
Lemma of_tok_of t : of_tok (tok_of t) = t.
Proof. now destruct t. Qed.

(** Equal results up to a relation. *)
Definition rel_res {A B} (R : A -> B -> Prop) (x : res A) (y : res B) : Prop :=
  match x, y with
  | Ok a, Ok b => R a b
  | Panic m, Panic m' => m = m'
  | _, _ => False
  end.

Lemma fold_res_left {S X} (f : S -> X -> res S) (l : list X) : forall r,
  fold_left (fun a x => do s <- a; f s x) l r = do s <- r; fold_res f l s.
Proof.
  induction l as [|x l IH]; intros r; simpl.
  - now destruct r.
  - rewrite IH. now destruct r.
Qed.

(** ** Folding over binary trees, also with empty leaves *)
Lemma tree_atoms_binary {E M} {RM : RazMeta E M} (R : Type) (bin : R -> E -> R) meta (t : tree (tree_data E M)) :
  binary t -> forall st init,
  t_fold_lr_meta (fun a e l n => match e with Leaf v => fold_left bin v a | _ => meta a (l, n) end) t st init
  = fold_left (sp_visit bin meta) (tree_atoms (Some t)) init.
Proof.
  induction t as [lv nm d l r Hl Hr] using tree_induction. intros B st init.
  destruct d as [|ml mr|v]; [contradiction| |].
  - destruct l as [tl|]; [|contradiction]. destruct r as [tr|]; [|contradiction]. destruct B as [Bl Br].
    rewrite tree_atoms_branch, fold_left_app. cbn [t_fold_lr_meta]. cbv zeta beta. cbn [optP] in Hl, Hr.
    rewrite (Hl Bl). rewrite (Hr Br). reflexivity.
  - destruct l; [contradiction|]. destruct r; [contradiction|].
    unfold tree_atoms. rewrite tobs_Node. unfold tobs. simpl. rewrite app_nil_r. now rewrite visit_Elt.
Qed.

Lemma fold_lr_binary {E M} {RM : RazMeta E M} {R} (init : R) (bin : R -> E -> R) meta (t : raz_tree E M) :
  match rt_tree t with None => True | Some tr => binary tr end ->
  rt_fold_lr_meta t init bin meta = fold_left (sp_visit bin meta) (contents t) init.
Proof.
  unfold rt_fold_lr_meta, contents. destruct (rt_tree t) as [tr|]; [|reflexivity].
  intros B. now apply tree_atoms_binary.
Qed.

(** ** Any accumulator against the vector *)
Section Sim.
Context {A : Type} {IF : IFace token A} {ok : level -> Prop} {R : A -> list token -> Prop}.
Hypothesis L : lifo_rel IF ok R.

Definition st_rel (s : A * option N) (s' : list token * option N) : Prop :=
  R (fst s) (rev (fst s')) /\ snd s = snd s'.

Lemma R_push a v x : R a (rev v) -> R (seq_push a x) (rev (v ++ [x])).
Proof. intros H. rewrite rev_app_distr. simpl. now apply L. Qed.

Lemma tokenize_step_sim s s' c : st_rel s s' ->
  rel_res st_rel (tokenize_step IF s c) (tokenize_step (vec_iface token) s' c).
Proof.
  destruct s as [a p], s' as [v p']. intros [H E]. cbn [fst snd] in H, E. subst p'.
  unfold tokenize_step. destruct (to_digit c) as [d|].
  - destruct (99999 <? _)%N; split; cbn; auto. now apply R_push.
  - assert (X : R (match p with Some num => seq_push a (Num num) | None => a end)
                  (rev (match p with Some num => seq_push (A := list token) (IFace := vec_iface token) v (Num num) | None => v end))).
    { destruct p; [now apply R_push|exact H]. }
    unfold push_op. destruct (c =? 43)%N; [cbn; split; cbn; auto; now apply R_push|].
    destruct (c =? 44)%N; cbn; [split; auto|reflexivity].
Qed.

Lemma tokenize_fold_sim (l : list (atom N level)) : levels_in ok l -> forall s s', st_rel s s' ->
  rel_res st_rel
    (fold_left (sp_visit (fun a c => do st <- a; tokenize_step IF st c)
      (fun a m => do st <- a; Ok (tokenize_meta IF st m))) l (Ok s))
    (fold_res (tokenize_step (vec_iface token)) (elts l) s').
Proof.
  induction l as [|[c|m n] l IH]; intros Lv s s' H.
  - exact H.
  - cbn [fold_left sp_visit elts fold_res bind]. pose proof (tokenize_step_sim s s' c H) as T.
    destruct (tokenize_step IF s c) as [s1|m|], (tokenize_step (vec_iface token) s' c) as [s1'|m'|];
      try contradiction.
    + cbn [bind]. apply IH; [|exact T]. exact Lv.
    + cbn [bind]. cbn in T. subst m'. clear. induction l as [|[c|k n] l IH]; simpl; auto.
  - cbn [fold_left sp_visit elts bind]. unfold levels_in in Lv. simpl in Lv. apply Forall_cons_iff in Lv as [Lv Ls].
    apply IH; [exact Ls|]. destruct s as [a p], H as [H E]. split; [|exact E]. cbn [tokenize_meta fst].
    now apply L.
Qed.

Lemma tokenize_final_sim s s' : st_rel s s' ->
  R (tokenize_final IF s) (rev (tokenize_final (vec_iface token) s')).
Proof.
  destruct s as [a p], s' as [v p']. intros [H E]. cbn in H, E. subst p'. unfold tokenize_final.
  destruct p; [now apply R_push|exact H].
Qed.

Lemma tokenize_tree_sim {M} {RM : RazMeta N M} (t : raz_tree N M) : otree_ok (rt_tree t) -> levels_in ok (contents t) ->
  rel_res (fun a v => R a (rev v)) (tokenize_tree IF t) (tokenize_vec (vec_iface token) (elts (contents t))).
Proof.
  intros O Lv. unfold tokenize_tree, tokenize_vec. rewrite fold_lr_meta_atoms by exact O.
  assert (X : st_rel (if_new, None) ([], None)) by (split; [apply L|reflexivity]).
  apply (tokenize_fold_sim (contents t) Lv) in X.
  change (@if_new token (list token) (vec_iface token)) with (@nil token).
  destruct (fold_left _ (contents t) _) as [s|m|], (fold_res _ (elts (contents t)) _) as [s'|m'|];
    try contradiction.
  - cbn. now apply tokenize_final_sim.
  - exact X.
Qed.
End Sim.

Section SimP.
Context {A : Type} {IF : IFace N A} {ok : level -> Prop} {R : A -> list N -> Prop}.
Hypothesis L : lifo_rel IF ok R.

Lemma parse_step_sim a l t : R a l ->
  exists a', parse_step IF a t = Ok a' /\ R a' (eval_tok l (tok_of t)).
Proof.
  intros H. destruct t as [n|]; cbn [parse_step tok_of eval_tok].
  - eexists. split; [reflexivity|]. now apply L.
  - destruct L as (_ & Hpush & Hpop & _). destruct (Hpop a l H) as (a1 & -> & H1). cbn [bind].
    destruct l as [|b l]; cbn [hd_error tl] in *; [eexists; split; [reflexivity|exact H1]|].
    destruct (Hpop a1 l H1) as (a2 & -> & H2). cbn [bind].
    destruct l as [|c l]; cbn [hd_error tl] in *.
    + eexists. split; [reflexivity|]. now apply Hpush.
    + eexists. split; [reflexivity|]. unfold u32_madd. rewrite N.mul_1_r. now apply Hpush.
Qed.

Lemma parse_fold_sim (l : list (atom token level)) : levels_in ok l -> forall a s, R a s ->
  exists a', fold_left (sp_visit (fun a c => do n <- a; parse_step IF n c)
      (fun a m => do n <- a; Ok (if_archive n m))) l (Ok a) = Ok a' /\
    R a' (fold_left eval_tok (map tok_of (elts l)) s).
Proof.
  induction l as [|[c|m n] l IH]; intros Lv a s H.
  - eexists. split; [reflexivity|exact H].
  - cbn [fold_left sp_visit elts map bind].
    destruct (parse_step_sim a s c H) as (a' & -> & H'). now apply IH.
  - cbn [fold_left sp_visit elts bind]. unfold levels_in in Lv. simpl in Lv. apply Forall_cons_iff in Lv as [Lv Ls].
    apply IH; [exact Ls|]. now apply L.
Qed.

Lemma parse_tree_sim {M} {RM : RazMeta token M} (t : raz_tree token M) :
  match rt_tree t with None => True | Some tr => binary tr end -> levels_in ok (contents t) ->
  exists a, parse_tree IF t = Ok a /\ R a (eval (map tok_of (elts (contents t)))).
Proof.
  intros B Lv. unfold parse_tree. rewrite fold_lr_binary by exact B. apply parse_fold_sim; [exact Lv|]. apply L.
Qed.
End SimP.

(** ** The vector pipeline *)
Lemma vec_rel X : lifo_rel (vec_iface X) (fun _ => True) (fun a l => rev a = l).
Proof.
  split; [reflexivity|]. split; [|split].
  - intros a l x <-. cbn. rewrite rev_app_distr. reflexivity.
  - intros a l <-. cbn [seq_pop vec_iface]. destruct (list_rev_case a) as [->|(a' & x & ->)].
    + exists []. split; reflexivity.
    + rewrite vec_pop_snoc, rev_app_distr.
      exists a'. split; reflexivity.
  - intros a l m _ <-. reflexivity.
Qed.
Lemma parse_vec_eval ts : forall v, fold_res (parse_step (vec_iface N)) ts v =
  Ok (rev (fold_left eval_tok (map tok_of ts) (rev v))).
Proof.
  induction ts as [|t ts IH]; intros v; cbn [fold_res map fold_left]; [now rewrite rev_involutive|].
  destruct (parse_step_sim (vec_rel N) v (rev v) t eq_refl) as (v' & -> & H). cbn [bind].
  rewrite IH. now rewrite H.
Qed.
Lemma ref_parse_step_vec v t : parse_step (vec_iface N) v t = Ok (ref_parse_step v t).
Proof.
  destruct t as [n|]; [reflexivity|]. cbn [parse_step seq_pop vec_iface ref_parse_step].
  destruct (vec_pop v) as [[b|] v1]; cbn [bind]; [|reflexivity].
  destruct (vec_pop v1) as [[a|] v2]; reflexivity.
Qed.
Lemma ref_parse_eval ts : ref_parse ts = rev (eval (map tok_of ts)).
Proof.
  assert (X : forall v, fold_res (parse_step (vec_iface N)) ts v = Ok (fold_left ref_parse_step ts v)).
  { induction ts as [|t ts IH]; intros v; [reflexivity|]. cbn [fold_res fold_left].
    rewrite ref_parse_step_vec. apply IH. }
  specialize (X []). rewrite parse_vec_eval in X. now injection X.
Qed.

(** ** Tokens of texts with small numbers *)
Lemma to_digit_is c : to_digit c = if is_digit c then Some (c - 48)%N else None.
Proof. reflexivity. Qed.
Lemma value_snoc run c : value (run ++ [c]) = (10 * value run + (c - 48))%N.
Proof. unfold value. now rewrite fold_left_app. Qed.
Definition part (run : list N) : option N := match run with [] => None | _ => Some (value run) end.
Lemma part_snoc run c : part (run ++ [c]) = Some (10 * value run + (c - 48))%N.
Proof. unfold part. rewrite value_snoc. now destruct run. Qed.
Lemma lex_app_le m text : forall run, numbers_up_to m (lex run text) -> (value run <= m)%N.
Proof.
  induction text as [|c text IH]; intros run; cbn [lex].
  - destruct run; cbn [number]; [intros _; apply N.le_0_l|]. intros H. now apply Forall_cons_iff in H.
  - destruct (is_digit c).
    + intros H. apply IH in H. rewrite value_snoc in H. lia.
    + intros H. apply Forall_app in H as [H _]. destruct run; [apply N.le_0_l|]. now apply Forall_cons_iff in H.
Qed.
Lemma part_bigger run c : is_digit c = true -> (10 * value run + (c - 48) < u32_mod)%N ->
  match part run with None => (c - 48)%N | Some p => u32_madd p 10 (c - 48) end = (10 * value run + (c - 48))%N.
Proof.
  intros D H. destruct run as [|x run]; [reflexivity|]. unfold part, u32_madd. rewrite N.mod_small; lia.
Qed.
Lemma flush_part run v :
  match part run with Some n => v ++ [Num n] | None => v end = v ++ map of_tok (number run).
Proof. destruct run; cbn; [now rewrite app_nil_r|reflexivity]. Qed.

Lemma tokenize_lex text : forall run v, Forall in_lang text -> numbers_up_to 99999 (lex run text) ->
  (do st <- fold_res (tokenize_step (vec_iface token)) text (v, part run);
   Ok (tokenize_final (vec_iface token) st)) = Ok (v ++ map of_tok (lex run text)).
Proof.
  induction text as [|c text IH]; intros run v F S; cbn [lex fold_res].
  - cbn [bind tokenize_final]. f_equal. apply (flush_part run v).
  - apply Forall_cons_iff in F as [Fc F]. cbn [tokenize_step]. rewrite to_digit_is.
    cbn [lex] in S. destruct (is_digit c) eqn:D.
    + pose proof (lex_app_le _ _ _ S) as B. rewrite value_snoc in B.
      rewrite part_bigger by (auto; unfold u32_mod; lia).
      rewrite (proj2 (N.ltb_ge _ _) B). cbn [bind]. rewrite <- part_snoc. now apply IH.
    + cbn [seq_push vec_iface]. rewrite flush_part. apply Forall_app in S as [_ S]. unfold push_op.
      destruct (c =? 43)%N eqn:Pl.
      * cbn [bind seq_push vec_iface]. change (@None N) with (part []). rewrite IH; [|exact F|].
        2: { apply Forall_app in S as [_ S]. exact S. }
        f_equal. rewrite !map_app, <- !app_assoc. reflexivity.
      * destruct Fc as [Fc|[Fc|Fc]]; [congruence|apply N.eqb_neq in Pl; congruence|]. subst c. rewrite (N.eqb_refl 44). cbn [bind].
        change (@None N) with (part []). rewrite IH; [|exact F|].
        2: { apply Forall_app in S as [_ S]. exact S. }
        f_equal. rewrite !map_app, <- !app_assoc. reflexivity.
Qed.
Lemma tokenize_vec_lex text : Forall in_lang text -> numbers_up_to 99999 (lex [] text) ->
  tokenize_vec (vec_iface token) text = Ok (map of_tok (lex [] text)).
Proof. intros F S. exact (tokenize_lex text [] [] F S). Qed.

(** The reference tokenizer: right for all [u32] numbers, but only when the text
    does not end in a number. *)
Lemma ref_lex text : forall run v, Forall in_lang text -> numbers_up_to 4294967295 (lex run text) ->
  fold_res ref_step (text ++ [44%N]) (v, part run) = Ok (v ++ map of_tok (lex run text), None).
Proof.
  induction text as [|c text IH]; intros run v F S; cbn [lex fold_res app].
  - cbn. now rewrite flush_part.
  - apply Forall_cons_iff in F as [Fc F]. cbn [ref_step]. rewrite to_digit_is.
    cbn [lex] in S. destruct (is_digit c) eqn:D.
    + pose proof (lex_app_le _ _ _ S) as B. rewrite value_snoc in B.
      rewrite part_bigger by (auto; unfold u32_mod; lia).
      cbn [bind]. rewrite <- part_snoc. now apply IH.
    + rewrite flush_part. apply Forall_app in S as [_ S].
      destruct (c =? 43)%N eqn:Pl.
      * cbn [bind]. change (@None N) with (part []). rewrite IH; [|exact F|].
        2: { apply Forall_app in S as [_ S]. exact S. }
        f_equal. rewrite !map_app, <- !app_assoc. reflexivity.
      * destruct Fc as [Fc|[Fc|Fc]]; [congruence|apply N.eqb_neq in Pl; congruence|]. subst c. rewrite (N.eqb_refl 44). cbn [bind].
        change (@None N) with (part []). rewrite IH; [|exact F|].
        2: { apply Forall_app in S as [_ S]. exact S. }
        f_equal. rewrite !map_app, <- !app_assoc. reflexivity.
Qed.
Lemma ref_tokenize_lex text : Forall in_lang text -> numbers_up_to 4294967295 (lex [] text) ->
  ref_tokenize (text ++ [44%N]) = Ok (map of_tok (lex [] text)).
Proof. intros F S. unfold ref_tokenize. change (@None N) with (part []). now rewrite ref_lex. Qed.

(** A trailing run of digits is dropped by the reference. *)
Lemma ref_lex_digits ds : Forall (fun c => is_digit c = true) ds -> forall v p,
  exists p', fold_res ref_step ds (v, p) = Ok (v, p').
Proof.
  induction ds as [|c ds IH]; intros F v p; [eexists; reflexivity|].
  apply Forall_cons_iff in F as [Fc F]. cbn [fold_res ref_step]. rewrite to_digit_is, Fc. cbn [bind]. now apply IH.
Qed.
Lemma fold_res_app {S X} (f : S -> X -> res S) a b : forall s,
  fold_res f (a ++ b) s = do s' <- fold_res f a s; fold_res f b s'.
Proof.
  induction a as [|x a IH]; intros s; cbn [app fold_res bind]; [reflexivity|].
  destruct (f s x); cbn [bind]; auto.
Qed.
Lemma ref_tokenize_drops text ds : Forall in_lang text -> numbers_up_to 4294967295 (lex [] text) ->
  Forall (fun c => is_digit c = true) ds ->
  ref_tokenize (text ++ 44%N :: ds) = Ok (map of_tok (lex [] text)).
Proof.
  intros F S D. unfold ref_tokenize. change (44%N :: ds) with ([44%N] ++ ds). rewrite app_assoc, fold_res_app.
  change (@None N) with (part []). rewrite ref_lex by assumption. cbn [bind app].
  destruct (ref_lex_digits ds D (map of_tok (lex [] text)) None) as (p' & ->). reflexivity.
Qed.

(** ** Invalid characters *)
Lemma in_lang_dec c : {in_lang c} + {~ in_lang c}.
Proof.
  unfold in_lang. destruct (is_digit c); [left; auto|]. destruct (N.eq_dec c 43); [left; auto|].
  destruct (N.eq_dec c 44); [left; auto|]. right. intuition congruence.
Qed.
Lemma tokenize_step_total s c : in_lang c -> exists s', tokenize_step (vec_iface token) s c = Ok s'.
Proof.
  destruct s as [v p]. intros H. unfold tokenize_step. rewrite to_digit_is. destruct (is_digit c) eqn:D.
  - destruct (99999 <? _)%N; eauto.
  - destruct H as [H|[-> | ->]]; [congruence| |]; cbn; eauto.
Qed.
Lemma tokenize_step_bad s c : ~ in_lang c -> tokenize_step (vec_iface token) s c = Panic "invalid char".
Proof.
  destruct s as [v p]. intros H. unfold tokenize_step, in_lang in *. rewrite to_digit_is. destruct (is_digit c) eqn:D; [tauto|].
  unfold push_op. destruct (N.eqb_spec c 43); [tauto|]. destruct (N.eqb_spec c 44); [tauto|]. reflexivity.
Qed.
Lemma tokenize_vec_total text : Forall in_lang text -> exists ts, tokenize_vec (vec_iface token) text = Ok ts.
Proof.
  intros F. unfold tokenize_vec. generalize (@if_new token _ (vec_iface token), @None N).
  induction text as [|c text IH]; intros s; [eexists; reflexivity|].
  apply Forall_cons_iff in F as [Fc F]. cbn [fold_res]. destruct (tokenize_step_total s c Fc) as (s' & ->).
  cbn [bind]. now apply IH.
Qed.
Lemma tokenize_vec_bad text : ~ Forall in_lang text -> tokenize_vec (vec_iface token) text = Panic "invalid char".
Proof.
  intros F. unfold tokenize_vec. generalize (@if_new token _ (vec_iface token), @None N).
  induction text as [|c text IH]; intros s; [destruct F; constructor|].
  cbn [fold_res]. destruct (in_lang_dec c) as [Fc|Fc].
  - destruct (tokenize_step_total s c Fc) as (s' & ->). cbn [bind]. apply IH. intros X. apply F. now constructor.
  - now rewrite tokenize_step_bad.
Qed.

(** ** Six digits and more: the digit that makes the number too big is read twice *)
Lemma tokenize_overlong run c : Forall (fun c => is_digit c = true) run -> is_digit c = true ->
  (value run <= 99999 < value (run ++ [c]))%N ->
  tokenize_vec (vec_iface token) (run ++ [c]) = Ok [Num (value (run ++ [c])); Num (c - 48)].
Proof.
  intros F D [B1 B2]. unfold tokenize_vec. rewrite fold_res_app.
  assert (X : forall ds run0, Forall (fun c => is_digit c = true) ds -> (value (run0 ++ ds) <= 99999)%N ->
    fold_res (tokenize_step (vec_iface token)) ds ([], part run0) = Ok ([], part (run0 ++ ds))).
  { clear. induction ds as [|c ds IH]; intros run0 F B; [now rewrite app_nil_r|].
    apply Forall_cons_iff in F as [Fc F]. cbn [fold_res tokenize_step]. rewrite to_digit_is, Fc.
    assert (Le : forall a b, (value a <= value (a ++ b))%N).
    { clear. intros a b. induction b as [|x b IH] using rev_ind; [rewrite app_nil_r; lia|].
      rewrite app_assoc, value_snoc. lia. }
    change (c :: ds) with ([c] ++ ds) in B |- *. rewrite app_assoc in B |- *. pose proof (Le (run0 ++ [c]) ds) as B'.
    rewrite value_snoc in B'. rewrite part_bigger by (auto; unfold u32_mod; lia).
    rewrite (proj2 (N.ltb_ge _ _)) by lia. cbn [bind]. rewrite <- part_snoc. now apply IH. }
  change (@None N) with (part []). change (@if_new token (list token) (vec_iface token)) with (@nil token).
  rewrite (X run []) by assumption. cbn [app bind fold_res tokenize_step].
  rewrite to_digit_is, D. rewrite value_snoc in B2 |- *.
  assert (c - 48 <= 9)%N. { unfold is_digit in D. apply andb_prop in D as [_ D]. apply N.leb_le in D. lia. }
  rewrite part_bigger by (auto; unfold u32_mod; lia).
  rewrite (proj2 (N.ltb_lt _ _) B2). reflexivity.
Qed.

(** ** The incremental pipeline *)
Definition below (lv : level) : Prop := (lv < u32_max)%N.
Lemma levels_in_Elt_cons {X} P (x : X) l : levels_in P (Elt x :: l) <-> levels_in P l.
Proof. reflexivity. Qed.
Lemma levels_pop {X} P (l : list (atom X level)) : levels_in P l -> levels_in P (snd (sp_pop l)).
Proof.
  induction l as [|[e|m n] l IH]; intros H; simpl; auto.
  apply IH. unfold levels_in in *. simpl in H. now apply Forall_cons_iff in H.
Qed.
Lemma as_rel_levels X : lifo_rel (astack_iface X) below
  (fun a l => (as_inv a /\ elts (as_abs a) = l) /\ levels_in below (as_abs a)).
Proof.
  pose proof (as_rel (astack_iface X) (fun l => l) eq_refl eq_refl eq_refl (fun _ _ => eq_refl)) as (H1 & H2 & H3 & H4).
  split; [|split; [|split]].
  - split; [exact H1|constructor].
  - intros a l x [H Lv]. split; [now apply H2|]. cbn [seq_push astack_iface]. rewrite as_push_abs. exact Lv.
  - intros a l [H Lv]. destruct (H3 a l H) as (a' & P & H'). exists a'. split; [exact P|]. split; [exact H'|].
    destruct H as [J _]. destruct (as_pop_spec a J) as (a2 & P2 & A & _). cbn [seq_pop astack_iface] in P.
    rewrite P in P2. injection P2 as _ ->. rewrite A. now apply levels_pop.
  - intros a l m Hm [H Lv]. split; [now apply H4|]. cbn [if_archive astack_iface].
    destruct (as_archive_spec a (snd m) (fst m)) as (_ & A & _). rewrite A.
    destruct (as_abs a) as [|[e|k n] l0]; unfold levels_in in *; simpl in *; auto; constructor; auto.
Qed.

Lemma levels_in_rev {X} P (l : list (atom X level)) : levels_in P l -> levels_in P (rev l).
Proof.
  induction l as [|a l IH]; intros H; [exact H|]. simpl. apply levels_in_app.
  destruct a as [e|m n]; [split; [exact (IH H)|constructor]|].
  unfold levels_in in H. simpl in H. apply Forall_cons_iff in H as [H1 H2]. split; [exact (IH H2)|].
  constructor; [exact H1|constructor].
Qed.
Lemma adder_vec_eval text ts : tokenize_vec (vec_iface token) text = Ok ts ->
  adder_vec text = Ok (rev (eval (map tok_of ts))).
Proof. intros H. unfold adder_vec. rewrite H. cbn [bind]. apply parse_vec_eval. Qed.

Lemma adder_inc_sim {M M'} {RM : RazMeta N M} {RM' : RazMeta token M'} (t : raz_tree N M) :
  otree_ok (rt_tree t) -> levels_in below (contents t) ->
  rel_res (fun a v => answers_as (astack_iface N) below a (rev v))
    (adder_inc (RM' := RM') t) (adder_vec (elts (contents t))).
Proof.
  intros O Lv. pose proof (tokenize_tree_sim (as_rel_levels token) t O Lv) as H. unfold adder_inc, adder_vec.
  destruct (tokenize_tree (astack_iface token) t) as [s|m|],
    (tokenize_vec (vec_iface token) (elts (contents t))) as [ts|m'|]; try contradiction; [|exact H].
  cbn [bind rel_res] in H |- *. destruct H as ((J & E) & Ls).
  destruct (from_at_tail_ok (M := M') s J Ls) as (tr & -> & C & _ & B). cbn [bind].
  destruct (parse_tree_sim (as_rel_levels N) tr) as (a & -> & Ha).
  - destruct (rt_tree tr); [apply B|exact I].
  - rewrite C. now apply levels_in_rev.
  - rewrite parse_vec_eval. cbn [rel_res]. rewrite rev_involutive. rewrite C, elts_rev, E, rev_involutive in Ha.
    exact (lifo_rel_answers _ _ _ (as_rel_levels N) _ _ Ha).
Qed.

(** ** Adding keeps the total *)
Lemma eval_total l : forall s, (total (fold_left eval_tok l s) mod 4294967296 = (total s + nums l) mod 4294967296)%N.
Proof.
  induction l as [|t l IH]; intros s; cbn [fold_left].
  - unfold nums. cbn. now rewrite N.add_0_r.
  - rewrite IH. destruct t as [n|]; cbn [eval_tok].
    + unfold nums. cbn. f_equal. unfold total. lia.
    + change (nums (TPlus :: l)) with (nums l). destruct s as [|b [|a s]]; auto.
      cbn [total fold_right]. change (fold_right N.add 0%N) with total.
      rewrite <- (N.add_assoc (_ mod _)). rewrite N.add_mod_idemp_l by discriminate. f_equal. lia.
Qed.

(** ** As used by the properties *)
Theorem tokenize_any {M A} {RM : RazMeta N M} (IF : IFace token A) (ok : level -> Prop) free (t : raz_tree N M) :
  tree_reached free t -> is_lifo IF ok -> (forall lv, (1 <= lv)%N -> ok lv) ->
  match tokenize_vec (vec_iface token) (elts (contents t)) with
  | Ok ts => exists a, tokenize_tree IF t = Ok a /\ answers_as IF ok a (rev ts)
  | Panic m => tokenize_tree IF t = Panic m
  | Fuel => False
  end.
Proof.
  intros H L W. pose proof (tokenize_tree_sim (is_lifo_rel IF ok L) t (proj1 (tree_reached_good t H))) as X.
  assert (Lv : levels_in ok (contents t)).
  { eapply Forall_impl; [|exact (reached_levels free t H)]. intros [lv nm]. apply W. }
  specialize (X Lv). destruct (tokenize_tree IF t) as [a|m|], (tokenize_vec _ _) as [v|m'|]; try contradiction.
  - exists a. auto.
  - cbn in X. now subst.
Qed.
Theorem tokens_all text : Forall in_lang text -> numbers_up_to 99999 (lex [] text) ->
  exists ts, tokenize_vec (vec_iface token) text = Ok ts /\ map tok_of ts = lex [] text /\
    ref_tokenize (text ++ [44%N]) = Ok ts.
Proof.
  intros F S. exists (map of_tok (lex [] text)). split; [now apply tokenize_vec_lex|]. split.
  - rewrite map_map. rewrite <- (map_id (lex [] text)) at 2. apply map_ext. now intros [n|].
  - apply ref_tokenize_lex; [exact F|]. eapply Forall_impl; [|exact S]. intros [n|]; [lia|auto].
Qed.
Theorem ref_drops text digits : Forall in_lang text ->
  numbers_up_to 4294967295 (lex [] text) -> Forall (fun d => is_digit d = true) digits ->
  exists ts, ref_tokenize (text ++ 44%N :: digits) = Ok ts /\ map tok_of ts = lex [] text.
Proof.
  intros F S D. eexists. split; [now apply ref_tokenize_drops|].
  rewrite map_map. rewrite <- (map_id (lex [] text)) at 2. apply map_ext. now intros [n|].
Qed.
Theorem adder_inc_ok {M M'} {RM : RazMeta N M} {RM' : RazMeta token M'} free (t : raz_tree N M) :
  tree_reached free t -> levels_in (fun lv => lv < u32_max)%N (contents t) ->
  match adder_vec (elts (contents t)) with
  | Ok v => exists s, adder_inc (RM' := RM') t = Ok s /\
      answers_as (astack_iface N) (fun lv => lv < u32_max)%N s (rev v)
  | Panic m => adder_inc (RM' := RM') t = Panic m
  | Fuel => False
  end.
Proof.
  intros H Lv. pose proof (adder_inc_sim (RM' := RM') t (proj1 (tree_reached_good t H)) Lv) as X.
  destruct (adder_inc (RM' := RM') t) as [a|m|], (adder_vec _) as [v|m'|]; try contradiction.
  - exists a. auto.
  - cbn in X. now subst.
Qed.
Theorem adder_vec_all text : Forall in_lang text ->
  exists ts, tokenize_vec (vec_iface token) text = Ok ts /\
    adder_vec text = Ok (rev (eval (map tok_of ts))) /\ adder_vec text = Ok (ref_parse ts).
Proof.
  intros F. destruct (tokenize_vec_total text F) as (ts & H). exists ts. split; [exact H|].
  rewrite (adder_vec_eval text ts H), ref_parse_eval. auto.
Qed.
Theorem adder_vec_lex text : Forall in_lang text -> numbers_up_to 99999 (lex [] text) ->
  adder_vec text = Ok (rev (eval (lex [] text))).
Proof.
  intros F S. destruct (tokens_all text F S) as (ts & H & <- & _). now apply adder_vec_eval.
Qed.
Lemma total_rev l : total (rev l) = total l.
Proof.
  assert (A : forall a b, total (a ++ b) = (total a + total b)%N).
  { intros a b. unfold total. induction a as [|x a IH]; simpl; [reflexivity|]. rewrite IH. lia. }
  induction l as [|x l IH]; [reflexivity|]. cbn [rev]. rewrite A, IH. unfold total. simpl. lia.
Qed.
Theorem adder_total text : Forall in_lang text -> numbers_up_to 99999 (lex [] text) ->
  exists v, adder_vec text = Ok v /\ (total v mod 2 ^ 32 = nums (lex [] text) mod 2 ^ 32)%N.
Proof.
  intros F S. eexists. split; [now apply adder_vec_lex|]. rewrite total_rev. exact (eval_total (lex [] text) []).
Qed.
