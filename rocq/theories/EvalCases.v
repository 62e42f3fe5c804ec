(** * Concrete generators and harnesses for the Examples about eval/src. *)

From Verif Require Import Base Spec SpecRaz LevelTreeModel RazMetaModel RazModel RazView RazIndex RazScripts
  EvalModel EvalSpec EvalScripts EvalProofs EvalHistory.

#[local] Open Scope N_scope.

(** A counter: elements, places and words are its successive values. *)
#[export] Instance demo_coord : Coord N N := { gen_elt g := (g, g + 1); gen_usize g := (g, g + 1) }.
#[export] Instance demo_rng : WordRng N := { next_word s := (s, s + 1) }.

(** Seven elements 10..16, datagauge 2, namegauge 1. *)
Definition demo_init {M} {RM : RazMeta N M} : res (eval_raz N M N * N) := ev_inc_init 7 2 1 10 4.
Definition seen {M} (r : res (eval_raz N M N * N)) : res (list (atom N level)) :=
  do ' (ev, _) <- r; do t <- unwrap "no tree" (ev_tree ev); Ok (contents t).
Definition demo_vec : eval_vec N N := vec_inc_init 7 10.
Definition num (n : N) : option name := Some (NPair (NNum n) (NStr "tree")).

Lemma insert_differs b : b = 1 \/ b = 2 ->
  exists t ev rng' v, (do ' (ev, r) <- demo_init; ev_insert ev b r) = Ok (ev, rng') /\ ev_tree ev = Some t /\
    vec_insert demo_vec b = Ok v /\ elts (contents t) <> fst v.
Proof.
  intros [-> | ->]; do 4 eexists; (split; [vm_compute; reflexivity|]); (split; [reflexivity|]);
    (split; [vm_compute; reflexivity|]); vm_compute; discriminate.
Qed.

Lemma gauge_not_kept :
  exists t ev rng', (do ' (ev, r) <- demo_init; ev_append (E := N) (S := N) ev 2 r) = Ok (ev, rng') /\ ev_tree ev = Some t /\
    ~ (forall p q, contents t = p ++ q -> Forall (fun a => match a with Elt _ => True | Mark _ _ => False end) q ->
       (N.of_nat (length q) <= ev_datagauge ev)%N).
Proof.
  do 3 eexists. split; [vm_compute; reflexivity|]. split; [reflexivity|]. intros H.
  specialize (H [Elt 10; Elt 11; Mark 3 (num 0); Elt 12; Elt 13; Mark 1 (num 1); Elt 14; Elt 15; Mark 2 (num 2)]
    [Elt 16; Elt 17; Elt 18] ltac:(vm_compute; reflexivity) ltac:(repeat constructor)).
  vm_compute in H. now apply H.
Qed.

Lemma inc_from_clash : exists ev0 r0 t0 ev r t,
  demo_init (M := count) = Ok (ev0, r0) /\ ev_tree ev0 = Some t0 /\ NoDup (point_names (contents t0)) /\
  ev_append (ev_from_tree t0 2 1 5) 3 r0 = Ok (ev, r) /\ ev_tree ev = Some t /\
  ~ NoDup (point_names (contents t)).
Proof.
  do 6 eexists. split; [vm_compute; reflexivity|]. split; [reflexivity|]. split; [|split; [vm_compute; reflexivity|split; [reflexivity|]]].
  - vm_compute. repeat constructor; simpl; intuition congruence.
  - vm_compute. intros H. inversion H as [|? ? Nin _]. apply Nin. simpl. auto.
Qed.
