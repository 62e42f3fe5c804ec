(** * Specifications for the example computations.

    Plain list code; nothing here refers to the model files. *)

From Verif Require Import Base Spec.

(** ** Filtering a sequence with archive points *)
Section Squash.
Context {E : Type} (p : E -> bool).

Fixpoint keep_atoms (l : list (atom E level)) : list (atom E level) :=
  match l with
  | [] => []
  | Elt e :: r => if p e then Elt e :: keep_atoms r else keep_atoms r
  | Mark m n :: r => Mark m n :: keep_atoms r
  end.

(** The higher of two archive points, the left one if they are equally high. *)
Definition higher (best : option (level * option name)) (m : level) (n : option name)
    : option (level * option name) :=
  match best with
  | Some (m0, n0) => if (m0 <? m)%N then Some (m, n) else best
  | None => Some (m, n)
  end.

(** Of the archive points between two elements only the highest (the leftmost of the
    highest) remains; those before the first or after the last element go. [started]:
    an element came before; [best]: the best archive point since. *)
Fixpoint squash (started : bool) (best : option (level * option name)) (l : list (atom E level))
    : list (atom E level) :=
  match l with
  | [] => []
  | Elt e :: r =>
      match best with
      | Some (m, n) => Mark m n :: Elt e :: squash true None r
      | None => Elt e :: squash true None r
      end
  | Mark m n :: r => if started then squash true (higher best m n) r else squash false None r
  end.
Definition filtered (l : list (atom E level)) : list (atom E level) := squash false None (keep_atoms l).
End Squash.

(** ** [x] is the last of the greatest elements of [l]. *)
Definition last_greatest {E} (leb : E -> E -> bool) (l : list E) (x : E) : Prop :=
  exists pre post, l = pre ++ x :: post /\
    Forall (fun y => leb y x = true) pre /\ Forall (fun y => leb x y = false) post.

(** [leb] is a total preorder. *)
Definition total_preorder {E} (leb : E -> E -> bool) : Prop :=
  (forall x y z, leb x y = true -> leb y z = true -> leb x z = true) /\
  (forall x y, leb x y = true \/ leb y x = true).

(** ** The adder's language: decimal numbers, [+] (43) and [,] (44) *)
Inductive tok : Type := TNum (n : N) | TPlus.
Definition is_digit (c : N) : bool := ((48 <=? c) && (c <=? 57))%N.
Definition in_lang (c : N) : Prop := is_digit c = true \/ c = 43%N \/ c = 44%N.
Definition value (digits : list N) : N := fold_left (fun a c => 10 * a + (c - 48))%N digits 0%N.
Definition number (digits : list N) : list tok := match digits with [] => [] | _ => [TNum (value digits)] end.
(** Maximal runs of digits are numbers; [run] holds the digits just read. *)
Fixpoint lex (run : list N) (text : list N) : list tok :=
  match text with
  | [] => number run
  | c :: r =>
      if is_digit c then lex (run ++ [c]) r
      else number run ++ (if (c =? 43)%N then [TPlus] else []) ++ lex [] r
  end.
Definition numbers_up_to (m : N) (l : list tok) : Prop :=
  Forall (fun t => match t with TNum n => (n <= m)%N | TPlus => True end) l.

(** Evaluation on a stack, newest first: [+] replaces the two top numbers by their
    sum and leaves a stack with fewer than two numbers as it is. *)
Definition eval_tok (stack : list N) (t : tok) : list N :=
  match t, stack with
  | TNum n, _ => n :: stack
  | TPlus, b :: a :: r => ((a + b) mod 4294967296)%N :: r
  | TPlus, _ => stack
  end.
Definition eval (l : list tok) : list N := fold_left eval_tok l [].
Definition total (l : list N) : N := fold_right N.add 0%N l.
(** The sum of the numbers in a token list. *)
Definition nums (l : list tok) : N := total (flat_map (fun t => match t with TNum n => [n] | TPlus => [] end) l).
