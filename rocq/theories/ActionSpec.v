(** * What an experiment is: edits and computations in turn. *)

From Verif Require Import Base EvalSpec.

Section Session.
Context {D O S : Type} (edit : D -> S -> res (D * S)) (comp : D -> S -> res (O * S)).

(** From data [d] and generator [s]: the data after each edit, the answers computed on
    them, and the generator in the end. *)
Inductive goes : D -> S -> list D -> list O -> S -> Prop :=
| GEnd d s : goes d s [] [] s
| GMore d s d1 s1 o s2 ds os s' :
    edit d s = Ok (d1, s1) -> comp d1 s1 = Ok (o, s2) -> goes d1 s2 ds os s' ->
    goes d s (d1 :: ds) (o :: os) s'.
End Session.

(** ** The vector harness over a plain list: a batch to be inserted is drawn before its
    place, and put in reversed (C50). *)
Section Vec.
Context {E G : Type} (elt : G -> E * G) (place : G -> N * G).
Definition vec_plain_hop (st : list E * G) (o : hop) : option (list E * G) :=
  let (xs, g) := st in
  match o with
  | HAppend b => plain_hop elt place st (HAppend b)
  | HInsert b =>
      match xs with
      | [] => None
      | _ =>
          let (r, g') := place (state_after elt (N.to_nat b) g) in
          let loc := N.to_nat (r mod N.of_nat (length xs)) in
          Some (firstn loc xs ++ rev (drawn elt (N.to_nat b) g) ++ skipn loc xs, g')
      end
  end.
Fixpoint vec_plain_hops (st : list E * G) (ops : list hop) : option (list E * G) :=
  match ops with
  | [] => Some st
  | o :: r => match vec_plain_hop st o with Some st' => vec_plain_hops st' r | None => None end
  end.
End Vec.

(** An experiment with these parameters does not overflow a counter of the harness. *)
Definition fits (size dg ng changes : N) (o : hop) : Prop :=
  (1 <= size /\ 1 <= dg /\ 1 <= ng /\ ng * dg < usize_mod /\ size + changes * hop_batch o < usize_max /\
   size / (ng * dg) + changes * (hop_batch o / (ng * dg) + 1) < usize_mod)%N.

(** The elements and generator an experiment starts with, and those after [i] edits. *)
Definition start {E G} (elt : G -> E * G) (size : N) (coord : G) : list E * G :=
  (drawn elt (N.to_nat size) coord, state_after elt (N.to_nat size) coord).
Definition edited {E G} (elt : G -> E * G) (place : G -> N * G) (size : N) (coord : G) (o : hop) (i : nat) : option (list E * G) :=
  plain_hops elt place (start elt size coord) (repeat o i).
Definition vec_edited {E G} (elt : G -> E * G) (place : G -> N * G) (size : N) (coord : G) (o : hop) (i : nat) : option (list E * G) :=
  vec_plain_hops elt place (start elt size coord) (repeat o i).
