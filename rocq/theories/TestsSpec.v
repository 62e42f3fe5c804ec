(** * Specification: what the randomised tests compute. *)

From Verif Require Import Base.

#[local] Open Scope N_scope.

(** The name in the tree of an archive point named by a number. *)
Definition index_name (i : N) : name := NPair (NNum i) (NStr "tree").

(** The names for 0, 1, ..., [n] - 1 in order. *)
Definition named_list (n : nat) : list (option name) :=
  map (fun i => Some (index_name (N.of_nat i))) (seq 0 n).

(** Draws for one round of the map test: key, value, key looked for. The value put
    last for a key among the rounds [seen], newest first. *)
Fixpoint last_put (numkeys : N) (seen : list (N * N * N)) (k : N) : option N :=
  match seen with
  | [] => None
  | (d1, d2, _) :: ds => if d1 mod numkeys =? k then Some (d2 mod numkeys) else last_put numkeys ds k
  end.
Fixpoint skip_answers (numkeys : N) (seen draws : list (N * N * N)) : list (option N) :=
  match draws with
  | [] => []
  | d :: ds => last_put numkeys (d :: seen) (snd d mod (numkeys * 2)) :: skip_answers numkeys (d :: seen) ds
  end.
