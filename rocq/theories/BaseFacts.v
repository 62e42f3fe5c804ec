(** * Facts about results and loops. *)

From Verif Require Import Base.

Lemma bind_Ok {A B} (m : res A) (k : A -> res B) b :
  bind m k = Ok b -> exists a, m = Ok a /\ k a = Ok b.
Proof. destruct m; simpl; intros H; try discriminate. eauto. Qed.

(** Total correctness of [loop] from an invariant and a measure. *)
Lemma loop_total {S R} (Inv : S -> Prop) (Q : R -> Prop) (m : S -> nat)
    (step : S -> res (S + R)) :
  (forall s, Inv s -> exists x, step s = Ok x /\
     match x with inl s' => Inv s' /\ m s' < m s | inr r => Q r end) ->
  forall n s, Inv s -> m s < n -> exists r, loop n step s = Ok r /\ Q r.
Proof.
  intros H n. induction n as [|n IH]; intros s I L; [lia|].
  destruct (H s I) as (x & E & P). simpl. rewrite E.
  destruct x as [s'|r].
  - destruct P as [I' L']. apply IH; [exact I'|lia].
  - eauto.
Qed.

Ltac inv H := inversion H; subst; clear H.
