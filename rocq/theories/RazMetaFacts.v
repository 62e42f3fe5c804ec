(** * Raz proofs, part 9: facts behind the theorems about indexes and stack conversion. *)

From Verif Require Import Base BaseFacts Spec SpecRaz StackModel AStackModel StackScripts StackProofs
  LevelTreeModel TreeCursorModel RazMetaModel RazModel TreeSpec TreeProofs CursorProofs RazView
  RazProofs RazUnfocus RazFocus RazIndex RazOps RazFrom RazScripts RazReach RazSession RazFacts.

Section Count.
Context {E : Type}.
Notation atoms := (list (atom E level)).

Lemma split_count_elts (l : atoms) : forall i,
  elts (fst (split_count i l)) = firstn i (elts l) /\ elts (snd (split_count i l)) = skipn i (elts l).
Proof.
  induction l as [|[e|m n] l IH]; intros [|i]; try (simpl; auto; fail); cbn [split_count].
  - destruct (IH i) as [A B]. destruct (split_count i l). simpl in *. now rewrite A, B.
  - destruct (IH (S i)) as [A B]. destruct (split_count (S i) l). simpl in *. now rewrite A, B.
Qed.

Lemma reached_focus_count free (t : raz_tree E count) i : tree_reached free t ->
  (n_elts (contents t) < usize_mod)%N -> i <= length (elts (contents t)) ->
  exists z, rt_focus t (N.of_nat i) = Ok (Some z) /\
    session z (sz_focus_count i (contents t)) /\
    behaves z (rev (firstn i (elts (contents t)))) (skipn i (elts (contents t))).
Proof.
  intros H Hn Hi. destruct (focus_count_sim t i (tree_reached_good _ H) Hn Hi) as (z & F & S & _).
  exists z. split; [exact F|]. pose proof (sim_session _ _ S) as Ss. split; [exact Ss|].
  pose proof (split_count_elts (contents t) i) as [A B]. unfold sz_focus_count in Ss.
  destruct (split_count i (contents t)) as [p q]. simpl in A, B. rewrite <- A, <- B.
  apply session_at_behaves. exact Ss.
Qed.

Lemma reached_focus_last free (t : raz_tree E count) : tree_reached free t ->
  exists z, rt_focus t usize_max = Ok (Some z) /\
    session z (sz_at (contents t) []) /\ behaves z (rev (elts (contents t))) [].
Proof.
  intros H. destruct (count_focus_last t (tree_reached_good _ H)) as (z & F & S & _).
  exists z. split; [exact F|]. apply sim_session in S. split; [exact S|].
  exact (session_at_behaves z _ [] S).
Qed.
End Count.

Lemma empty_focus free E M (RM : RazMeta E M) (t : raz_tree E M) i : tree_reached free t -> contents t = [] ->
  rt_focus t i = Ok (Some raz_new).
Proof.
  intros H C. destruct (tree_reached_good _ H) as [G _]. unfold contents in C.
  destruct (rt_tree t) as [tr|] eqn:T; [|now destruct (focus_empty t i T)].
  exfalso. destruct (ends_nonmark tr G) as (_ & (e & r & X) & _). congruence.
Qed.

(** ** Names *)
Section Names.
Context {E : Type}.
Notation atoms := (list (atom E level)).

Lemma split_name_some n : forall (l p q : atoms), split_name n l = Some (p, q) ->
  exists lev q', l = p ++ Mark lev (Some n) :: q' /\ q = Mark lev (Some n) :: q'.
Proof.
  induction l as [|[e|m n'] l IH]; intros p q H; cbn [split_name] in H; [discriminate| |].
  - destruct (split_name n l) as [[a b]|] eqn:S; [|discriminate]. cbn in H. injection H as <- <-.
    destruct (IH _ _ eq_refl) as (lev & q' & -> & ->). simpl. eauto.
  - destruct (oname_eq_dec n' (Some n)) as [->|N].
    + injection H as <- <-. simpl. eauto.
    + destruct (split_name n l) as [[a b]|] eqn:S; [|discriminate]. cbn in H. injection H as <- <-.
      destruct (IH _ _ eq_refl) as (lev & q' & -> & ->). simpl. eauto.
Qed.

Lemma reached_focus_name free (t : raz_tree E names) n : tree_reached free t ->
  count_occ name_eq_dec (point_names (contents t)) n = 1 ->
  exists z p lev q, contents t = p ++ Mark lev (Some n) :: q /\
    rt_focus t (PCenter n) = Ok (Some z) /\ session z (sz_at p (Mark lev (Some n) :: q)).
Proof.
  intros H C. destruct (focus_name_sim t n (tree_reached_good _ H) C) as (z & p & q & Sp & F & S & _).
  destruct (split_name_some _ _ _ _ Sp) as (lev & q' & X & ->).
  exists z, p, lev, q'. split; [exact X|]. split; [exact F|]. now apply sim_session.
Qed.

End Names.

Lemma unit_ends free E (t : raz_tree E unit) : tree_reached free t ->
  (exists z, rt_focus t PLeft = Ok (Some z) /\ session z (sz_at [] (contents t))) /\
  (exists z, rt_focus t PRight = Ok (Some z) /\ session z (sz_at (contents t) [])) /\
  (contents t <> [] -> forall u, rt_focus t (PCenter u) = Panic "Invalid position").
Proof.
  intros H. pose proof (tree_reached_good _ H) as G. split; [|split].
  - destruct (unit_focus_left t G) as (z & F & S & _). exists z. split; [exact F|]. now apply sim_session.
  - destruct (unit_focus_right t G) as (z & F & S & _). exists z. split; [exact F|]. now apply sim_session.
  - intros N u. now apply unit_focus_center.
Qed.
Lemma names_ends free E (t : raz_tree E names) : tree_reached free t ->
  (exists z, rt_focus t PLeft = Ok (Some z) /\ session z (sz_at [] (contents t))) /\
  (exists z, rt_focus t PRight = Ok (Some z) /\ session z (sz_at (contents t) [])).
Proof.
  intros H. pose proof (tree_reached_good _ H) as G. split.
  - destruct (names_focus_left t G) as (z & F & S & _). exists z. split; [exact F|]. now apply sim_session.
  - destruct (names_focus_right t G) as (z & F & S & _). exists z. split; [exact F|]. now apply sim_session.
Qed.

(** ** Stack conversion *)
Section Stack.
Context {E M : Type} {RM : RazMeta E M}.
Notation archives_in P ops := (Forall (fun o => match o with OpArchive _ m => P m | _ => True end) ops).

Lemma stack_abs (P : level -> Prop) ops obs (s : astack E level) :
  as_run as_new ops = Ok (obs, s) -> archives_in P ops ->
  as_inv s /\ as_abs s = snd (sp_run [] ops) /\ levels_in P (as_abs s).
Proof.
  intros R F. destruct (as_run_spec ops as_new as_new_inv) as (s' & R' & A & I).
  rewrite R in R'. injection R' as _ <-. split; [exact I|]. split; [exact A|].
  rewrite A. apply sp_run_levels; [constructor|exact F].
Qed.

Lemma active_current (s : astack E level) : as_active_len s <> 0 -> current s <> [].
Proof. unfold as_active_len. intros H C. rewrite C in H. now apply H. Qed.

Theorem tail_conversion ops obs (s : astack E level) :
  as_run as_new ops = Ok (obs, s) -> archives_in (fun m => m < u32_max)%N ops ->
  exists t : raz_tree E M, from_at_tail s = Ok t /\
    contents t = rev (snd (sp_run [] ops)) /\
    (archives_in (fun m => 1 <= m)%N ops -> as_active_len s <> 0 \/ as_is_empty s = true -> canonical t).
Proof.
  intros R F. destruct (stack_abs _ _ _ _ R F) as (I & A & L).
  destruct (@from_at_tail_ok E M RM s I L) as (t & T & C & K & _). exists t. split; [exact T|].
  split; [now rewrite C, A|]. intros F1 Ne. apply K.
  - now destruct (stack_abs _ _ _ _ R F1) as (_ & _ & L1).
  - destruct Ne as [Ne|Ne]; [left; now apply active_current|right].
    rewrite as_is_empty_abs in Ne. now destruct (as_abs s).
Qed.

Theorem head_conversion ops obs (s : astack E level) :
  as_run as_new ops = Ok (obs, s) -> archives_in (fun m => 1 <= m <= u32_max)%N ops ->
  exists t : raz_tree E M, from_at_head s = Ok t /\
    contents t = snd (sp_run [] ops) /\
    (as_active_len s <> 0 \/ as_is_empty s = true -> canonical t).
Proof.
  intros R F. destruct (stack_abs _ _ _ _ R F) as (I & A & L).
  destruct (@from_at_head_ok E M RM s I L) as (t & T & C & K & _). exists t. split; [exact T|].
  split; [now rewrite C, A|]. intros Ne. apply K.
  destruct Ne as [Ne|Ne]; [left; now apply active_current|right].
  rewrite as_is_empty_abs in Ne. now destruct (as_abs s).
Qed.

Theorem just_archived_panics {R} ops obs (s : astack E level) (init : E -> R) (bn : R -> R -> R) :
  as_run as_new ops = Ok (obs, s) -> archives_in (fun m => 1 <= m < u32_max)%N ops ->
  as_active_len s = 0 -> as_is_empty s = false ->
  (exists t : raz_tree E M, from_at_tail s = Ok t /\ rt_fold_up t init bn = Panic "leaf with empty vec") /\
  (exists t : raz_tree E M, from_at_head s = Ok t /\ rt_fold_up t init bn = Panic "leaf with empty vec").
Proof.
  intros R0 F Z Ne. destruct (stack_abs _ _ _ _ R0 F) as (I & A & L).
  assert (Cu : current s = []). { unfold as_active_len in Z. now destruct (current s). }
  rewrite as_is_empty_abs in Ne. split.
  - destruct (@from_at_tail_ok E M RM s I) as (t & T & C & _ & B).
    { eapply Forall_impl; [|exact L]. cbv beta. intros ? ?. lia. }
    exists t. split; [exact T|]. destruct (rt_tree t) as [tr|] eqn:Tr; [|rewrite B in Ne; discriminate].
    destruct B as [B1 B2]. eapply fold_up_panics; eauto.
  - destruct (@from_at_head_ok E M RM s I) as (t & T & C & _ & B).
    { eapply Forall_impl; [|exact L]. cbv beta. intros ? ?. lia. }
    exists t. split; [exact T|]. destruct (rt_tree t) as [tr|] eqn:Tr; [|rewrite B in Ne; discriminate].
    destruct B as [B1 B2]. eapply fold_up_panics; eauto.
Qed.
End Stack.
