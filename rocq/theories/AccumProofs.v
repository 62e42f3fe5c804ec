(** * All accumulators are plain stacks. *)

From Verif Require Import Base BaseFacts Spec SpecRaz StackModel AStackModel StackScripts StackProofs
  LevelTreeModel TreeCursorModel RazMetaModel RazModel TreeSpec TreeProofs CursorProofs RazView
  RazProofs RazScripts RazReach AccumModel AccumScripts.

(** A relation between accumulator and element list that the calls keep. *)
Definition lifo_rel {T A} (IF : IFace T A) (ok : level -> Prop) (R : A -> list T -> Prop) : Prop :=
  R if_new [] /\
  (forall a l x, R a l -> R (seq_push a x) (x :: l)) /\
  (forall a l, R a l -> exists a', seq_pop a = Ok (hd_error l, a') /\ R a' (tl l)) /\
  (forall a l m, ok (fst m) -> R a l -> R (if_archive a m) l).

Lemma lifo_rel_answers {T A} (IF : IFace T A) ok R : lifo_rel IF ok R ->
  forall a l, R a l -> answers_as IF ok a l.
Proof.
  intros (_ & Hpush & Hpop & Harch) a l HR ops. revert a l HR.
  induction ops as [|o ops IH]; intros a l HR F; [eexists; reflexivity|].
  apply Forall_cons_iff in F as [Fo F]. destruct o as [x| |m]; cbn [irun istep lifo].
  - destruct (IH _ _ (Hpush a l x HR) F) as (a' & Ha). cbn [bind]. rewrite Ha. eexists; reflexivity.
  - destruct (Hpop a l HR) as (a1 & -> & H1). cbn [bind]. destruct (IH _ _ H1 F) as (a' & ->).
    eexists; reflexivity.
  - destruct (IH _ _ (Harch a l m Fo HR) F) as (a' & Ha). cbn [bind]. rewrite Ha. eexists; reflexivity.
Qed.

(** Conversely, answering as a plain stack is itself such a relation: two lists with
    the same answers are equal. *)
Lemma answers_step {T A} (IF : IFace T A) ok a l : answers_as IF ok a l ->
  (forall x, answers_as IF ok (seq_push a x) (x :: l)) /\
  (exists a', seq_pop a = Ok (hd_error l, a') /\ answers_as IF ok a' (tl l)) /\
  (forall m, ok (fst m) -> answers_as IF ok (if_archive a m) l).
Proof.
  intros H. split; [|split].
  - intros x ops F. destruct (H (IPush x :: ops) (Forall_cons (IPush x) (I : iop_levels ok (IPush x)) F)) as (a' & Ha).
    cbn [irun istep bind lifo] in Ha. destruct (irun IF (seq_push a x) ops) as [[xs a2]| |] eqn:R; try discriminate.
    cbn [bind] in Ha. injection Ha as <- <-. eauto.
  - destruct (H [IPop] (Forall_cons IPop (I : iop_levels ok IPop) (Forall_nil _))) as (a0 & Ha). cbn [irun istep lifo] in Ha.
    destruct (seq_pop a) as [[x a1]| |] eqn:P; try discriminate. cbn [bind] in Ha. injection Ha as -> ->.
    exists a0. split; [reflexivity|]. intros ops F.
    destruct (H (IPop :: ops) (Forall_cons IPop (I : iop_levels ok IPop) F)) as (a' & Ha). cbn [irun istep lifo] in Ha. rewrite P in Ha.
    cbn [bind] in Ha. destruct (irun IF a0 ops) as [[xs a2]| |] eqn:R; try discriminate.
    cbn [bind] in Ha. injection Ha as <- <-. eauto.
  - intros m Hm ops F. destruct (H (IArchive m :: ops) (Forall_cons (IArchive m) (Hm : iop_levels ok (IArchive m)) F)) as (a' & Ha).
    cbn [irun istep bind lifo] in Ha. destruct (irun IF (if_archive a m) ops) as [[xs a2]| |] eqn:R; try discriminate.
    cbn [bind] in Ha. injection Ha as <- <-. eauto.
Qed.
Lemma is_lifo_rel {T A} (IF : IFace T A) ok : is_lifo IF ok -> lifo_rel IF ok (answers_as IF ok).
Proof.
  intros H. split; [exact H|]. split; [|split].
  - intros a l x Ha. apply (answers_step _ _ _ _ Ha).
  - intros a l Ha. apply (answers_step _ _ _ _ Ha).
  - intros a l m Hm Ha. now apply (answers_step _ _ _ _ Ha).
Qed.

(** ** List, RcList *)
Fixpoint list_rep {X} (l : acc_list X) : list X :=
  match l with
  | LNil => []
  | LCons x l => x :: list_rep l
  | LName _ l | LArt l => list_rep l
  end.
Lemma list_pop_rep {X} (l : acc_list X) : fst (list_pop l) = hd_error (list_rep l) /\
  list_rep (snd (list_pop l)) = tl (list_rep l).
Proof. induction l; simpl; auto. Qed.
Lemma list_lifo X : is_lifo (list_iface X) (fun _ => True).
Proof.
  apply (lifo_rel_answers _ _ (fun a l => list_rep a = l)); [|reflexivity].
  split; [reflexivity|]. split; [|split].
  - intros a l x <-. reflexivity.
  - intros a l <-. destruct (list_pop_rep a) as [H1 H2]. exists (snd (list_pop a)). cbn [seq_pop list_iface].
    rewrite <- H1. split; [|exact H2]. now destruct (list_pop a).
  - intros a l [lv [n|]] _ <-; reflexivity.
Qed.

(** ** VecList, RcVecList *)
Fixpoint vl_rep {X} (l : vec_list X) : list X :=
  match l with
  | VNil => []
  | VCons v l => rev v ++ vl_rep l
  | VName _ l | VArt l => vl_rep l
  end.
Fixpoint vl_ok {X} (l : vec_list X) : Prop :=
  match l with
  | VNil => True
  | VCons v l => v <> [] /\ vl_ok l
  | VName _ l | VArt l => vl_ok l
  end.
Lemma vl_pop_rep {X} (l : vec_list X) : vl_ok l ->
  exists l', vl_pop l = Ok (hd_error (vl_rep l), l') /\ vl_rep l' = tl (vl_rep l) /\ vl_ok l'.
Proof.
  induction l as [|v l IH|n l IH|l IH]; simpl; auto.
  - intros _. exists VNil. repeat split.
  - intros [Hv Hl]. destruct (exists_last Hv) as (v' & x & ->). rewrite vec_pop_snoc. cbn [bind unwrap].
    rewrite rev_app_distr. cbn [rev app hd_error tl].
    destruct v' as [|y v'].
    + exists l. auto.
    + eexists. split; [reflexivity|]. split; [reflexivity|]. split; [congruence|exact Hl].
Qed.
Lemma vl_lifo X : is_lifo (vl_iface X) (fun _ => True).
Proof.
  apply (lifo_rel_answers _ _ (fun a l => vl_rep a = l /\ vl_ok a)); [|repeat split].
  split; [repeat split|]. split; [|split].
  - intros a l x [<- H]. cbn [seq_push vl_iface]. destruct a as [|v a|n a|a]; simpl in *; try (split; [reflexivity|]; now split).
    rewrite rev_app_distr. split; [reflexivity|]. split; [|tauto]. now destruct v.
  - intros a l [<- H]. destruct (vl_pop_rep a H) as (a' & P & R & O). exists a'. auto.
  - intros a l [lv [n|]] _ [<- H]; cbn; auto.
Qed.

(** ** Vec *)
Lemma vec_lifo X : is_lifo (vec_iface X) (fun _ => True).
Proof.
  apply (lifo_rel_answers _ _ (fun a l => rev a = l)); [|reflexivity].
  split; [reflexivity|]. split; [|split].
  - intros a l x <-. cbn. rewrite rev_app_distr. reflexivity.
  - intros a l <-. cbn [seq_pop vec_iface]. destruct (list_rev_case a) as [->|(a' & x & ->)].
    + exists []. split; reflexivity.
    + rewrite vec_pop_snoc, rev_app_distr.
      exists a'. split; reflexivity.
  - intros a l m _ <-. reflexivity.
Qed.

(** ** Archive stacks *)
Lemma sp_archive_elts {X M} (l : list (atom X M)) nm m : elts (snd (sp_archive l nm m)) = elts l.
Proof. destruct l as [|[e|m' n'] l]; reflexivity. Qed.

Lemma as_rel {X M} (IF : IFace X (astack X M)) (f : level -> M) :
  if_new = as_new -> seq_push = as_push -> seq_pop = as_pop ->
  (forall s m, if_archive s m = snd (as_archive s (snd m) (f (fst m)))) ->
  lifo_rel IF (fun _ => True) (fun a l => as_inv a /\ elts (as_abs a) = l).
Proof.
  intros Hnew Hpush Hpop Harch. split; [|split; [|split]].
  - rewrite Hnew. split; [exact as_new_inv|reflexivity].
  - intros a l x [J <-]. rewrite Hpush, as_push_abs. split; [exact J|reflexivity].
  - intros a l [J <-]. rewrite Hpop. destruct (as_pop_spec a J) as (a' & -> & A & J').
    destruct (sp_pop_elts (as_abs a)) as [H1 H2]. exists a'. rewrite H1. rewrite A. auto.
  - intros a l m _ [J <-]. rewrite Harch. destruct (as_archive_spec a (snd m) (f (fst m))) as (_ & A & K).
    split; [exact (K J)|]. rewrite A. apply sp_archive_elts.
Qed.
Lemma as_lifo X : is_lifo (astack_iface X) (fun _ => True).
Proof.
  apply (lifo_rel_answers _ _ _ (as_rel (astack_iface X) (fun l => l) eq_refl eq_refl eq_refl (fun _ _ => eq_refl))).
  split; [exact as_new_inv|reflexivity].
Qed.
Lemma as_unit_lifo X : is_lifo (astack_unit_iface X) (fun _ => True).
Proof.
  apply (lifo_rel_answers _ _ _ (as_rel (astack_unit_iface X) (fun _ => tt) eq_refl eq_refl eq_refl (fun _ _ => eq_refl))).
  split; [exact as_new_inv|reflexivity].
Qed.

(** ** Raz *)
Lemma raz_rel {X M} (RM : RazMeta X M) : lifo_rel (raz_iface X M RM) (fun lv => (1 <= lv)%N)
  (fun z l => exists s, sim z s /\ elts (s_left s) = l).
Proof.
  split; [|split; [|split]].
  - exists sz_new. split; [apply sim_new|reflexivity].
  - intros z l x (s & S & <-). destruct (zstep_sim z s (OPushL x) I S) as (z' & R & S' & _).
    cbn [zstep sz_step] in R, S'. cbn [seq_push raz_iface]. destruct (push_left z x) as [n z1].
    injection R as _ ->. destruct (sz_push_left s x) as [n' s'] eqn:P. exists s'. split; [exact S'|].
    unfold sz_push_left in P. injection P as _ <-. reflexivity.
  - intros z l (s & S & <-). destruct (zstep_sim z s OPopL I S) as (z' & R & S' & _).
    cbn [zstep sz_step] in R, S'. cbn [seq_pop raz_iface]. destruct (pop_left z) as [[x z1]| |]; try discriminate.
    cbn [bind] in R. unfold sz_pop_left in R, S'. destruct (sp_pop_elts (s_left s)) as [P1 P2]. rewrite P1 in R, S'. 
    injection R as -> ->. exists z'. split; [reflexivity|]. cbn [fst snd] in S'. eexists. split; [exact S'|]. exact P2.
  - intros z l m Hm (s & S & <-). destruct (zstep_sim z s (OArchL (fst m) (snd m)) Hm S) as (z' & R & S' & _).
    cbn [zstep sz_step] in R, S'. injection R as <-. eexists. split; [exact S'|].
    cbn [snd]. unfold sz_archive_left. pose proof (sp_archive_elts (s_left s) (point_name (snd m)) (fst m)) as Q.
    destruct (sp_archive (s_left s) (point_name (snd m)) (fst m)). exact Q.
Qed.
Lemma raz_lifo X M RM : is_lifo (raz_iface X M RM) (fun lv => (1 <= lv)%N).
Proof.
  apply (lifo_rel_answers _ _ _ (raz_rel RM)). exists sz_new. split; [apply sim_new|reflexivity].
Qed.
