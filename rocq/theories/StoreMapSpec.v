(** * What an archive stack over the store reads as, and the names it uses. *)

From Verif Require Import Base SpecRaz StackModel AStackModel StoreModel StoreSpec StoreScripts.

Section Stack.
Context {T A : Type}.

(** The whole stack under a handle, read head by head ([k] bounds the length). *)
Fixpoint heads_read (k : nat) (s : option (shead T)) (st : store T A) : res (option (head T)) :=
  match k with
  | O => Fuel
  | S k =>
      match s with
      | None => Ok None
      | Some h =>
          do ' ((e, nx), _) <- s_force_head h st;
          do r <- heads_read k nx st;
          Ok (Some (Head (match h with HPut _ _ => None | HCell a => Some (snd a) end) e r))
      end
  end.
End Stack.

Section AStack.
Context {E A : Type}.
Definition stack_reads (st : store (level * list E) A) (s : sastack E level) (a : astack E level) : Prop :=
  sa_current s = current a /\ exists k, heads_read k (sa_archived s) st = Ok (archived a).
Definition stack_names (a : astack E level) : list name :=
  match archived a with None => [] | Some h => flat_map names_of (point_names h) end.
End AStack.
