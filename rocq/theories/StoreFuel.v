(** * More fuel changes nothing but running out of it. *)

From Verif Require Import Base SpecRaz StackModel AStackModel LevelTreeModel TreeCursorModel RazMetaModel RazModel
  RazScripts StoreModel StoreSpec StoreScripts.

Section Leads.
Context {T A : Type}.
Notation sm := (sm T A).

Definition leads {X} (m m' : sm X) : Prop := forall st, m st = Fuel \/ m' st = m st.

Lemma leads_refl {X} (m : sm X) : leads m m.
Proof. intros st. now right. Qed.
Lemma leads_bind {X Y} (m m' : sm X) (f f' : X -> sm Y) : leads m m' -> (forall x, leads (f x) (f' x)) ->
  leads (s_bind m f) (s_bind m' f').
Proof.
  intros H F st. unfold s_bind. destruct (H st) as [->| ->]; [now left|].
  destruct (m st) as [[x st1]| |]; [apply F|now right|now right].
Qed.
Lemma leads_loop {S R} k : forall k' (step step' : S -> sm (S + R)), k <= k' -> (forall s, leads (step s) (step' s)) ->
  forall s, leads (s_loop k step s) (s_loop k' step' s).
Proof.
  induction k as [|k IH]; intros k' step step' Hk H s; [now left|].
  destruct k' as [|k']; [lia|]. cbn [s_loop]. apply leads_bind; [apply H|]. intros [s'|r]; [|apply leads_refl].
  apply IH; [lia|exact H].
Qed.
End Leads.

Create HintDb leads.
#[local] Hint Resolve leads_refl : leads.
Ltac ld :=
  intros;
  repeat first
  [ apply leads_refl
  | solve [eauto 2 with leads]
  | apply leads_bind; [|intros]
  | apply leads_loop; [assumption|intros]
  | match goal with |- leads (match ?x with _ => _ end) _ => destruct x end ].
Ltac lds d := intros; unfold d; ld.

Section Functions.
Context {T A : Type} {TU : TreeUpdate A} {Nsp : here}.
Variables (k k' : nat).
Hypothesis Hk : k <= k'.
Notation leads := (@leads T A _).

Lemma leads_dla c : leads (sc_down_left_all k c) (sc_down_left_all k' c).
Proof using Hk. lds @sc_down_left_all. Qed.
Lemma leads_dra c : leads (sc_down_right_all k c) (sc_down_right_all k' c).
Proof using Hk. lds @sc_down_right_all. Qed.
Lemma leads_up_all c : leads (sc_up_all k c) (sc_up_all k' c).
Proof using Hk. lds @sc_up_all. Qed.
Lemma leads_cr c : leads (sc_clear_right k c) (sc_clear_right k' c).
Proof using Hk. lds @sc_clear_right. Qed.
Lemma leads_cl c : leads (sc_clear_left k c) (sc_clear_left k' c).
Proof using Hk. lds @sc_clear_left. Qed.
Lemma leads_jlu l c : leads (sc_join_left_up k l c) (sc_join_left_up k' l c).
Proof using Hk. lds @sc_join_left_up. Qed.
Lemma leads_jld l c : leads (sc_join_left_down k l c) (sc_join_left_down k' l c).
Proof using Hk. lds @sc_join_left_down. Qed.
Lemma leads_jru l c : leads (sc_join_right_up k l c) (sc_join_right_up k' l c).
Proof using Hk. lds @sc_join_right_up. Qed.
Lemma leads_jrd l c : leads (sc_join_right_down k l c) (sc_join_right_down k' l c).
Proof using Hk. lds @sc_join_right_down. Qed.
#[local] Hint Resolve leads_cr leads_cl leads_jlu leads_jld leads_jru leads_jrd : leads.
Lemma leads_join a l n d b : leads (sc_join k a l n d b) (sc_join k' a l n d b).
Proof using Hk. lds @sc_join. Qed.
End Functions.

Lemma leads_read {T A} {Nsp : here} k : forall k' (t : stree A), k <= k' -> @leads T A _ (st_read k t) (st_read k' t).
Proof.
  induction k as [|k IH]; intros k' t Hk; [now left|]. destruct k' as [|k']; [lia|]. cbn [st_read].
  apply leads_bind; [apply leads_refl|]. intros [[d l] r]. apply leads_bind.
  - destruct l as [u|]; [|apply leads_refl]. apply leads_bind; [apply IH; lia|intros; apply leads_refl].
  - intros l'. apply leads_bind; [|intros; apply leads_refl].
    destruct r as [u|]; [|apply leads_refl]. apply leads_bind; [apply IH; lia|intros; apply leads_refl].
Qed.
#[local] Hint Resolve leads_dla leads_dra leads_up_all leads_join leads_read : leads.

Section Raz.
Context {E M : Type} {RM : RazMeta E M} {Nsp : here}.
Variables (k k' : nat).
Hypothesis Hk : k <= k'.
Notation leads := (@leads (level * list E) (tree_data E M) _).

Lemma leads_focus_step s : leads (s_focus_step k s) (s_focus_step k' s).
Proof using Hk. lds @s_focus_step. Qed.
#[local] Hint Resolve leads_focus_step : leads.
Lemma leads_focus t x : leads (s_focus k t x) (s_focus k' t x).
Proof using Hk. lds @s_focus. Qed.
Lemma leads_focus_left t : leads (s_focus_left k t) (s_focus_left k' t).
Proof using Hk. lds @s_focus_left. Qed.
Lemma leads_peek_left z : leads (s_peek_left k z) (s_peek_left k' z).
Proof using Hk. lds @s_peek_left. Qed.
Lemma leads_peek_right z : leads (s_peek_right k z) (s_peek_right k' z).
Proof using Hk. lds @s_peek_right. Qed.
Lemma leads_pop_left z : leads (s_pop_left k z) (s_pop_left k' z).
Proof using Hk. lds @s_pop_left. Qed.
Lemma leads_pop_right z : leads (s_pop_right k z) (s_pop_right k' z).
Proof using Hk. lds @s_pop_right. Qed.
Lemma leads_ull s l n c : leads (s_unfocus_left_loop k s l n c) (s_unfocus_left_loop k' s l n c).
Proof using Hk. lds @s_unfocus_left_loop. Qed.
Lemma leads_url s l n c : leads (s_unfocus_right_loop k s l n c) (s_unfocus_right_loop k' s l n c).
Proof using Hk. lds @s_unfocus_right_loop. Qed.
#[local] Hint Resolve leads_focus leads_focus_left leads_peek_left leads_peek_right leads_pop_left leads_pop_right leads_ull leads_url : leads.
Lemma leads_unfocus z : leads (s_unfocus k z) (s_unfocus k' z).
Proof using Hk. lds @s_unfocus. Qed.
Lemma leads_zstep z o : leads (s_zstep k z o) (s_zstep k' z o).
Proof using Hk. lds @s_zstep. Qed.
#[local] Hint Resolve leads_unfocus leads_zstep : leads.
Lemma leads_step p c : leads (s_step k p c) (s_step k' p c).
Proof using Hk. lds @s_step. Qed.
Lemma leads_run cs : forall p, leads (s_run k p cs) (s_run k' p cs).
Proof using Hk.
  induction cs as [|c cs IH]; intros p; cbn [s_run]; [apply leads_refl|].
  apply leads_bind; [apply leads_step|]. intros [x p1]. apply leads_bind; [apply IH|]. intros [xs p2]. apply leads_refl.
Qed.
End Raz.

(** Once there is enough fuel for an answer, any fuel gives it or runs out. *)
Lemma enough {E M} {RM : RazMeta E M} {Nsp : here} (cs : list (cmd E Index)) p st k0 r :
  s_run k0 p cs st = Ok r -> forall k, s_run k p cs st = Fuel \/ s_run k p cs st = Ok r.
Proof.
  intros H k. destruct (Nat.le_ge_cases k k0) as [L|L].
  - destruct (leads_run k k0 L cs p st) as [F|F]; [now left|]. right. congruence.
  - destruct (leads_run k0 k L cs p st) as [F|F]; [congruence|]. right. congruence.
Qed.
