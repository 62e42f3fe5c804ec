(** * What a client sees of a Raz from some point on. *)

From Verif Require Import Base Spec SpecRaz StackModel AStackModel LevelTreeModel TreeCursorModel
  RazMetaModel RazModel RazView RazScripts.

Section Session.
Context {E M : Type} {RM : RazMeta E M}.

(** Every script of calls on [z] answers as the pair of element lists [l], [r]
    (nearest to the cursor first). *)
Definition behaves (z : raz E M) (l r : list E) : Prop :=
  forall ops, Forall zop_ok ops ->
  exists outs z', zrun z ops = Ok (outs, z') /\ map zanswer outs = fst (zip_run (l, r) ops).

(** Every script of calls on [z], then [unfocus], answers as the zipper over atoms [s]. *)
Definition session (z : raz E M) (s : sraz E) : Prop :=
  forall ops, Forall zop_ok ops ->
  exists z' t, zrun z ops = Ok (fst (sz_run s ops), z') /\
    unfocus z' = Ok t /\ contents t = sz_unfocus (snd (sz_run s ops)).

End Session.
