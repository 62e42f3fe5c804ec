(** * Cursor moves, reachable cursors, and the sequence below a cursor. *)

From Verif Require Import Base LevelTreeModel TreeCursorModel TreeSpec.

(** The public moves that keep everything. *)
Inductive move := MDownLeft | MDownRight | MForceLeft | MForceRight | MUp.

Section Scripts.
Context {A : Type} {TU : TreeUpdate A}.

Definition move_step (c : cursor A) (m : move) : res (cursor A) :=
  match m with
  | MDownLeft => Ok (snd (down_left c))
  | MDownRight => Ok (snd (down_right c))
  | MForceLeft => Ok (snd (down_left_force ForceYes c))
  | MForceRight => Ok (snd (down_right_force ForceYes c))
  | MUp => do ' (_, c') <- up c; Ok c'
  end.
Fixpoint moves (c : cursor A) (ms : list move) : res (cursor A) :=
  match ms with
  | [] => Ok c
  | m :: r => do c' <- move_step c m; moves c' r
  end.

(** The tree a client gets by going up to the root. *)
Definition whole (c : cursor A) : res (option (tree A)) :=
  do c' <- up_all c; Ok (at_tree c').

(** All cursors made from trees with conventional levels. *)
Inductive cursor_reached : cursor A -> Prop :=
| CR_new : cursor_reached c_new
| CR_from t : conventional t -> cursor_reached (c_from t)
| CR_move c m c' : cursor_reached c -> move_step c m = Ok c' -> cursor_reached c'
| CR_discard_left c : cursor_reached c -> cursor_reached (snd (down_left_force ForceDiscard c))
| CR_discard_right c : cursor_reached c -> cursor_reached (snd (down_right_force ForceDiscard c))
| CR_split_left c l o r : cursor_reached c -> c_split c = (l, o, r) -> cursor_reached l
| CR_split_right c l o r : cursor_reached c -> c_split c = (l, o, r) -> cursor_reached r
| CR_join l lev nm d r c : cursor_reached l -> cursor_reached r -> c_join l lev nm d r = Ok c ->
    cursor_reached c.

(** The rebuild function never panics and keeps the part [g] of the data. *)
Definition keeps {B} (g : A -> B) : Prop :=
  forall l d lev nm r, exists d', rebuild l d lev nm r = Ok d' /\ g d' = g d.

(** Nodes of a tree from left to right, with the kept part of the data. *)
Definition nodes {B} (g : A -> B) (o : option (tree A)) : list (level * option name * B) :=
  map (fun '(lv, nm, d) => (lv, nm, g d)) (oinorder o).

(** The tree with only the kept part of the data. *)
Fixpoint relabel {B} (g : A -> B) (t : tree A) : tree B :=
  match t with
  | Node lv nm d l r => Node lv nm (g d) (option_map (relabel g) l) (option_map (relabel g) r)
  end.

(** Collecting [n] answers of the right iterator. *)
Fixpoint iter_r_take (n : nat) (c : cursor A) : res (list (option A)) :=
  match n with
  | 0 => Ok []
  | S n' =>
      do ' (x, c') <- iter_r_next c;
      do xs <- iter_r_take n' c';
      Ok (x :: xs)
  end.

End Scripts.

(** The exact position inside a tree: the cursors reached from the root by walking down. *)
Inductive inside {A} (t : tree A) : cursor A -> Prop :=
| in_root : inside t (c_from t)
| in_left c u : inside t c -> c_tree c = Some u ->
    inside t (Cursor false (l_forest c) (t_left u) ((dirty c, u) :: r_forest c))
| in_right c u : inside t c -> c_tree c = Some u ->
    inside t (Cursor false ((dirty c, u) :: l_forest c) (t_right u) (r_forest c)).
