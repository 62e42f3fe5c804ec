(** * Specification of the test harnesses: what a batch leaves in the sequence, and
    the harness over a plain list. *)

From Verif Require Import Base Spec SpecRaz.

(** ** Generators: the state after [n] calls, and the values of the first [n] calls. *)
Definition state_after {A S} (next : S -> A * S) (n : nat) (s : S) : S :=
  Nat.iter n (fun s => snd (next s)) s.
Definition nth_draw {A S} (next : S -> A * S) (i : nat) (s : S) : A := fst (next (state_after next i s)).
Definition drawn {A S} (next : S -> A * S) (n : nat) (s : S) : list A :=
  map (fun i => nth_draw next i s) (seq 0 n).

Section Marked.
Context {E : Type}.
Notation atoms := (list (atom E level)).

(** Elements [k+1, k+2, ..]. After each whose number is a multiple of [dg] there is
    an archive point, the [j]-th multiple at level [lev j]; it is named if the number
    is a multiple of [ng*dg], the [j]-th such one by the number [nm j]. *)
Fixpoint marked (dg ng : N) (lev : N -> level) (nm : N -> N) (k : N) (xs : list E) : atoms :=
  match xs with
  | [] => []
  | x :: r =>
      let k := (k + 1)%N in
      Elt x ::
      (if (k mod dg =? 0)%N
       then [Mark (lev (k / dg)%N)
               (if (k mod (ng * dg) =? 0)%N then point_name (Some (NNum (nm (k / (ng * dg))%N))) else None)]
       else []) ++ marked dg ng lev nm k r
  end.

(** A batch put in when [c] elements had been counted: levels and name numbers are
    taken from the front. *)
Definition batch_atoms (dg ng : N) (level_at : nat -> level) (first_name c : N) (xs : list E) : atoms :=
  marked dg ng (fun j => level_at (N.to_nat (j - c / dg - 1))) (fun j => first_name + (j - c / (ng * dg) - 1))%N c xs.

(** Without an archive point at its end. *)
Definition strip (l : atoms) : atoms :=
  match rev l with
  | Mark _ _ :: r => rev r
  | _ => l
  end.

(** New atoms in front of [q]: their last archive point stays only if an element follows. *)
Definition seam (new q : atoms) : atoms := if is_elt q then new else strip new.

End Marked.

(** ** The harness over a plain list, with a generator for elements and places. *)
Inductive hop : Type := HAppend (batch : N) | HInsert (batch : N).
Definition hop_batch (o : hop) : N := match o with HAppend b | HInsert b => b end.

Section Plain.
Context {E G : Type} (elt : G -> E * G) (place : G -> N * G).

(** [None]: inserting into nothing is not possible. *)
Definition plain_hop (st : list E * G) (o : hop) : option (list E * G) :=
  let (xs, g) := st in
  match o with
  | HAppend b => Some (xs ++ drawn elt (N.to_nat b) g, state_after elt (N.to_nat b) g)
  | HInsert b =>
      match xs with
      | [] => None
      | _ =>
          let (r, g) := place g in
          let loc := N.to_nat (r mod N.of_nat (length xs)) in
          Some (firstn loc xs ++ drawn elt (N.to_nat b) g ++ skipn loc xs, state_after elt (N.to_nat b) g)
      end
  end.
Fixpoint plain_hops (st : list E * G) (ops : list hop) : option (list E * G) :=
  match ops with
  | [] => Some st
  | o :: r => match plain_hop st o with Some st' => plain_hops st' r | None => None end
  end.

(** The same with the place of an insertion left open; one number is drawn for it. *)
Inductive loose_hops : list E * G -> list hop -> list E * G -> Prop :=
| LDone st : loose_hops st [] st
| LAppend xs g b r st :
    loose_hops (xs ++ drawn elt (N.to_nat b) g, state_after elt (N.to_nat b) g) r st ->
    loose_hops (xs, g) (HAppend b :: r) st
| LInsert p q g b r st : let g1 := snd (place g) in
    loose_hops (p ++ drawn elt (N.to_nat b) g1 ++ q, state_after elt (N.to_nat b) g1) r st ->
    loose_hops (p ++ q, g) (HInsert b :: r) st.

(** Elements added and names drawn by a history. *)
Definition hop_total (ops : list hop) : N := fold_right (fun o n => (hop_batch o + n)%N) 0%N ops.
Definition hop_names (dg ng : N) (ops : list hop) : N :=
  fold_right (fun o n => (hop_batch o / (ng * dg) + 1 + n)%N) 0%N ops.
End Plain.
