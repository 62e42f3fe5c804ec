(** * Vocabulary for statements about memoised conversions of archive stacks. *)

From Verif Require Import Base Spec LevelTreeModel StackModel AStackModel StackScripts.

(** [s] comes from a sequence of operations on a new archive stack and holds the elements
    and archive points [l], the last one pushed first. *)
Definition stack_of {E} (s : astack E level) (l : list (atom E level)) : Prop :=
  exists ops obs, as_run as_new ops = Ok (obs, s) /\ snd (sp_run [] ops) = l.
