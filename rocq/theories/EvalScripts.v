(** * Histories of a harness: these only sequence the model's functions. *)

From Verif Require Import Base Spec RazMetaModel RazModel RazView RazIndex RazScripts EvalModel EvalSpec.

Section Histories.
Context {E G S : Type} {CG : Coord E G} {WS : WordRng S}.

Definition ev_hop (ev : eval_raz E count G) (rng : S) (o : hop) : res (eval_raz E count G * S) :=
  match o with
  | HAppend b => ev_append ev b rng
  | HInsert b => ev_insert ev b rng
  end.
Fixpoint ev_hops (ev : eval_raz E count G) (rng : S) (ops : list hop) : res (eval_raz E count G * S) :=
  match ops with
  | [] => Ok (ev, rng)
  | o :: r => do ' (ev, rng) <- ev_hop ev rng o; ev_hops ev rng r
  end.

(** The order of the names may change from call to call. *)
Definition evn_hop (order : list name -> list name) (ev : eval_raz E names G) (rng : S) (o : hop)
    : res (eval_raz E names G * S) :=
  match o with
  | HAppend b => evn_append ev b rng
  | HInsert b => evn_insert order ev b rng
  end.
Fixpoint evn_hops (ev : eval_raz E names G) (rng : S) (ops : list ((list name -> list name) * hop))
    : res (eval_raz E names G * S) :=
  match ops with
  | [] => Ok (ev, rng)
  | (order, o) :: r => do ' (ev, rng) <- evn_hop order ev rng o; evn_hops ev rng r
  end.

Definition vec_hop (ev : eval_vec E G) (o : hop) : res (eval_vec E G) :=
  match o with
  | HAppend b => Ok (vec_append ev b)
  | HInsert b => vec_insert ev b
  end.
Fixpoint vec_hops (ev : eval_vec E G) (ops : list hop) : res (eval_vec E G) :=
  match ops with
  | [] => Ok ev
  | o :: r => do ev <- vec_hop ev o; vec_hops ev r
  end.
End Histories.

(** A harness ready for edits: a tree within reach of the API, with the elements [xs]
    and coordinator [g], whose names are numbers below the harness's own counter, each
    used once. *)
Definition harness {E M G} {RM : RazMeta E M} (free : bool) (ev : eval_raz E M G) (xs : list E) (g : G)
    (dg ng : N) : Prop :=
  exists t, ev_tree ev = Some t /\ tree_reached free t /\ elts (contents t) = xs /\
    ev_coord ev = g /\ ev_datagauge ev = dg /\ ev_namegauge ev = ng /\
    NoDup (point_names (contents t)) /\
    Forall (fun n => exists i, n = NPair (NNum i) (NStr "tree") /\ (i < ev_names ev)%N)
      (point_names (contents t)).
