(** * Vocabulary for statements about the moves of a Raz. *)

From Verif Require Import Base Spec SpecRaz MemoSpec PathSpec.

Section Work.
Context {E : Type}.

(** What a pop pays: nothing while the elements pushed or taken since the focus last, one
    failed move at the end of the sequence, four when it passes an old archive point. *)
Definition toll (side : list (atom E level)) (new : nat) : nat :=
  match side with
  | [] => 1
  | Elt _ :: _ => 0
  | Mark _ _ :: _ => if new =? 0 then 4 else 0
  end.
Definition pays (s : sraz E) (o : zop E) : nat :=
  match o with
  | OPopL => toll (s_left s) (s_lnew s)
  | OPopR => toll (s_right s) (s_rnew s)
  | _ => 0
  end.
Fixpoint tolls (s : sraz E) (ops : list (zop E)) : nat :=
  match ops with
  | [] => 0
  | o :: r => pays s o + tolls (snd (sz_step s o)) r
  end.

Definition no_peek (o : zop E) : Prop := match o with OPeekL | OPeekR => False | _ => True end.

(** The old archive points seen from the cursor, to the left and to the right; and to the
    left when the nearest one is taken away. *)
Definition seen_left (s : sraz E) : nat := seen_from_right (rev (beyond (s_lnew s) (s_left s))).
Definition seen_right (s : sraz E) : nat := seen_from_left 0%N (beyond (s_rnew s) (s_right s)).
Definition seen_left_next (s : sraz E) : nat := seen_from_right (rev (beyond (S (s_lnew s)) (s_left s))).
End Work.
