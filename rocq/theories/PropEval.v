(** * Theorems about the test harnesses in eval/src, C49, C50 and C61 to C67. *)

From Coq Require Import Permutation.
From Verif Require Import Base Spec SpecRaz LevelTreeModel RazMetaModel RazModel TreeSpec RazView RazIndex RazScripts
  RazFacts LevelGenModel ExampleModel ExampleSpec EvalModel EvalSpec EvalProofs EvalScripts EvalHistory EvalCases.

(** C49. [inc_init]: the generated elements, an archive point after each [dg]
    elements, every [ng]-th of them named by the next number, levels in the order
    generated; no archive point at the very end. *)
Theorem C49_init : forall free (E M G S : Type) (RM : RazMeta E M) (CG : Coord E G) (WS : WordRng S)
    (size dg ng : N) (coord : G) (rng : S),
  (1 <= dg)%N -> (1 <= ng)%N -> (ng * dg < usize_mod)%N -> (size < usize_mod)%N ->
  exists t : raz_tree E M,
    ev_inc_init size dg ng coord rng =
      Ok (EvalRaz (Some t) (size / (ng * dg)) (state_after gen_elt (N.to_nat size) coord) 0 dg ng,
          state_after next_word (N.to_nat (size / dg)) rng) /\
    tree_reached free t /\
    contents t = strip (batch_atoms dg ng (nth_level rng) 0 0 (drawn gen_elt (N.to_nat size) coord)).
Proof. intros free E M G S RM CG WS size dg ng coord rng. exact (inc_init_spec free size dg ng coord rng). Qed.
Print Assumptions C49_init.

Theorem C49_elements : forall free (E M G S : Type) (RM : RazMeta E M) (CG : Coord E G) (WS : WordRng S)
    (size dg ng : N) (coord : G) (rng : S),
  (1 <= dg)%N -> (1 <= ng)%N -> (ng * dg < usize_mod)%N -> (size < usize_mod)%N ->
  exists (ev : eval_raz E M G) rng' t, ev_inc_init size dg ng coord rng = Ok (ev, rng') /\
    ev_tree ev = Some t /\ tree_reached free t /\ elts (contents t) = drawn gen_elt (N.to_nat size) coord /\
    point_names (contents t) =
      map (fun i => NPair (NNum (N.of_nat i)) (NStr "tree")) (seq 0 (N.to_nat ((size - 1) / (ng * dg)))).
Proof. intros free E M G S RM CG WS. exact (init_elements free). Qed.
Print Assumptions C49_elements.

(** With a gauge of 0 it panics. *)
Theorem C49_zero : forall (E M G S : Type) (RM : RazMeta E M) (CG : Coord E G) (WS : WordRng S)
    (size dg ng : N) (coord : G) (rng : S), (dg = 0 \/ ng = 0)%N ->
  (ev_inc_init size dg ng coord rng : res (eval_raz E M G * S)) = Panic "attempt to divide by zero".
Proof. intros E M G S RM CG WS. exact init_zero. Qed.
Print Assumptions C49_zero.

(** With size 6 the third archive point and its name 2 are gone, though the name was drawn. *)
Example C49_case :
  seen (M := names) demo_init =
    Ok [Elt 10; Elt 11; Mark 3 (num 0); Elt 12; Elt 13; Mark 1 (num 1); Elt 14; Elt 15; Mark 2 (num 2); Elt 16]%N /\
  seen (M := count) (ev_inc_init 6 2 1 10 4)%N =
    Ok [Elt 10; Elt 11; Mark 3 (num 0); Elt 12; Elt 13; Mark 1 (num 1); Elt 14; Elt 15]%N /\
  (do ' (ev, _) <- ev_inc_init (M := count) 6 2 1 10 4; Ok (ev_names ev))%N = Ok 3%N.
Proof. split; [|split]; vm_compute; reflexivity. Qed.

(** C50. [EvalIRaz::insert] draws the place, then the batch, and puts it in as drawn ... *)
Theorem C50_insert_iraz : forall free (E G S : Type) (CG : Coord E G) (WS : WordRng S)
    (ev : eval_raz E count G) xs g dg ng batch (rng : S), harness free ev xs g dg ng ->
  (1 <= dg)%N -> (1 <= ng)%N -> (ng * dg < usize_mod)%N -> (ev_counter ev + batch < usize_max)%N ->
  (ev_names ev + batch / (ng * dg) + 1 < usize_mod)%N -> xs <> [] -> (N.of_nat (length xs) < usize_mod)%N ->
  forall t, ev_tree ev = Some t ->
  let loc := N.to_nat (fst (gen_usize g) mod N.of_nat (length xs)) in
  let g' := snd (gen_usize g) in
  exists t' ev', ev_insert ev batch rng = Ok (ev', state_after next_word (N.to_nat (batch / dg + 1)) rng) /\
    ev_tree ev' = Some t' /\ ev_counter ev' = (ev_counter ev + batch)%N /\
    ev_names ev' = (ev_names ev + batch / (ng * dg) + 1)%N /\
    (let (p, q) := split_count loc (contents t) in
     contents t' = p ++ seam (batch_atoms dg ng (nth_level rng) (ev_names ev) (ev_counter ev)
                              (drawn gen_elt (N.to_nat batch) g')) q ++ q) /\
    harness free ev' (firstn loc xs ++ drawn gen_elt (N.to_nat batch) g' ++ skipn loc xs)
      (state_after gen_elt (N.to_nat batch) g') dg ng.
Proof. intros free E G S CG WS. exact (insert_spec free). Qed.
Print Assumptions C50_insert_iraz.

(** ... [EvalVec::insert] draws the batch, then the place, and puts it in reversed. *)
Theorem C50_insert_vec : forall (E G : Type) (CG : Coord E G) (xs : list E) (g : G) b, xs <> [] ->
  let g1 := state_after gen_elt (N.to_nat b) g in
  let loc := N.to_nat (fst (gen_usize g1) mod N.of_nat (length xs)) in
  vec_insert (xs, g) b = Ok (firstn loc xs ++ rev (drawn gen_elt (N.to_nat b) g) ++ skipn loc xs, snd (gen_usize g1)).
Proof. intros E G CG. exact vec_insert_spec. Qed.
Print Assumptions C50_insert_vec.

(** So they disagree from the same start, even for a batch of one. *)
Theorem C50_insert_agrees_refuted : forall b, (b = 1 \/ b = 2)%N ->
  exists t ev rng' v, (do ' (ev, r) <- demo_init; ev_insert ev b r) = Ok (ev, rng') /\ ev_tree ev = Some t /\
    vec_insert demo_vec b = Ok v /\ elts (contents t) <> fst v.
Proof. exact insert_differs. Qed.
Print Assumptions C50_insert_agrees_refuted.

Example C50_case :
  seen (do ' (ev, r) <- demo_init; ev_insert ev 3 r)%N =
    Ok [Elt 10; Elt 11; Mark 3 (num 0); Elt 12; Elt 18; Elt 19; Mark 1 (num 3); Elt 20; Elt 13; Mark 1 (num 1);
        Elt 14; Elt 15; Mark 2 (num 2); Elt 16]%N /\
  vec_insert demo_vec 3%N = Ok ([10; 11; 12; 13; 14; 15; 19; 18; 17; 16], 21)%N.
Proof. split; vm_compute; reflexivity. Qed.

(** C61. A history of appends and inserts of [EvalIRaz] is the same history on a plain
    list: same elements, same coordinator, and it panics only where a batch is to be
    inserted into nothing. *)
Theorem C61_history : forall free (E G S : Type) (CG : Coord E G) (WS : WordRng S) (size dg ng : N) ops
    (coord : G) (rng : S),
  (1 <= dg)%N -> (1 <= ng)%N -> (ng * dg < usize_mod)%N -> (size + hop_total ops < usize_max)%N ->
  (size / (ng * dg) + hop_names dg ng ops < usize_mod)%N ->
  let start := (drawn gen_elt (N.to_nat size) coord, state_after gen_elt (N.to_nat size) coord) in
  let run := do ' (ev, rng) <- (ev_inc_init size dg ng coord rng : res (eval_raz E count G * S)); ev_hops ev rng ops in
  match plain_hops gen_elt gen_usize start ops with
  | Some (xs, g) => exists ev rng' t, run = Ok (ev, rng') /\ ev_tree ev = Some t /\ tree_reached free t /\
      elts (contents t) = xs /\ ev_coord ev = g /\ count_n (rt_meta t) = N.of_nat (length xs)
  | None => run = Panic "attempt to calculate the remainder with a divisor of zero"
  end.
Proof. intros free E G S CG WS. exact (history_from_init free). Qed.
Print Assumptions C61_history.

Example C61_case :
  (do ' (ev, r) <- demo_init; do ' (ev, _) <- ev_hops ev r [HInsert 3; HAppend 2]; do t <- unwrap "" (ev_tree ev);
   Ok (elts (contents t), ev_coord ev))%N = Ok ([10; 11; 12; 18; 19; 20; 13; 14; 15; 16; 21; 22], 23)%N /\
  plain_hops gen_elt gen_usize (drawn gen_elt 7 10, state_after gen_elt 7 10)%N [HInsert 3; HAppend 2]%N =
    Some ([10; 11; 12; 18; 19; 20; 13; 14; 15; 16; 21; 22], 23)%N /\
  (do ' (ev, r) <- ev_inc_init (M := count) 0 2 1 10 4; ev_hops ev r [HInsert 3])%N =
    Panic "attempt to calculate the remainder with a divisor of zero".
Proof. split; [|split]; vm_compute; reflexivity. Qed.

(** C62. [append]: the old sequence with its archive points, then the batch with its own. *)
Theorem C62_append : forall free (E G S : Type) (CG : Coord E G) (WS : WordRng S)
    (ev : eval_raz E count G) xs g dg ng batch (rng : S), harness free ev xs g dg ng ->
  (1 <= dg)%N -> (1 <= ng)%N -> (ng * dg < usize_mod)%N -> (ev_counter ev + batch < usize_max)%N ->
  (ev_names ev + batch / (ng * dg) + 1 < usize_mod)%N -> (N.of_nat (length xs) < usize_mod)%N ->
  forall t, ev_tree ev = Some t ->
  exists t' ev', ev_append ev batch rng = Ok (ev', state_after next_word (N.to_nat (batch / dg + 1)) rng) /\
    ev_tree ev' = Some t' /\ ev_counter ev' = (ev_counter ev + batch)%N /\
    ev_names ev' = (ev_names ev + batch / (ng * dg) + 1)%N /\
    contents t' = contents t ++ strip (batch_atoms dg ng (nth_level rng) (ev_names ev) (ev_counter ev)
                              (drawn gen_elt (N.to_nat batch) g)) /\
    harness free ev' (xs ++ drawn gen_elt (N.to_nat batch) g) (state_after gen_elt (N.to_nat batch) g) dg ng.
Proof. intros free E G S CG WS. exact (append_spec free). Qed.
Print Assumptions C62_append.

(** Both ways to start give such a harness. *)
Theorem C62_start : forall free (E M G S : Type) (RM : RazMeta E M) (CG : Coord E G) (WS : WordRng S)
    (size dg ng : N) (coord : G) (rng : S),
  (1 <= dg)%N -> (1 <= ng)%N -> (ng * dg < usize_mod)%N -> (size < usize_mod)%N ->
  exists (ev : eval_raz E M G) rng', ev_inc_init size dg ng coord rng = Ok (ev, rng') /\
    ev_counter ev = 0%N /\ ev_names ev = (size / (ng * dg))%N /\
    harness free ev (drawn gen_elt (N.to_nat size) coord) (state_after gen_elt (N.to_nat size) coord) dg ng.
Proof. intros free E M G S RM CG WS. exact (init_harness free). Qed.
Print Assumptions C62_start.
Theorem C62_start_empty : forall free (E M G : Type) (RM : RazMeta E M) (dg ng : N) (coord : G),
  exists ev : eval_raz E M G, ev_inc_empty dg ng coord = Ok ev /\ ev_counter ev = 0%N /\ ev_names ev = 0%N /\
    harness free ev [] coord dg ng.
Proof. intros free E M G RM. exact (empty_harness free). Qed.
Print Assumptions C62_start_empty.

(** The claim that in the harness's sequences an archive point follows every [dg]
    elements fails already after [inc_init] and [append], because the count of
    elements starts at 0 again. *)
Theorem C62_gauge_kept_refuted :
  exists t ev rng', (do ' (ev, r) <- demo_init; ev_append (E := N) (S := N) ev 2 r)%N = Ok (ev, rng') /\ ev_tree ev = Some t /\
    ~ (forall p q, contents t = p ++ q -> Forall (fun a => match a with Elt _ => True | Mark _ _ => False end) q ->
       (N.of_nat (length q) <= ev_datagauge ev)%N).
Proof. exact gauge_not_kept. Qed.
Print Assumptions C62_gauge_kept_refuted.

Example C62_case : seen (do ' (ev, r) <- demo_init; ev_append ev 5 r)%N =
  Ok [Elt 10; Elt 11; Mark 3 (num 0); Elt 12; Elt 13; Mark 1 (num 1); Elt 14; Elt 15; Mark 2 (num 2); Elt 16;
      Elt 17; Elt 18; Mark 1 (num 3); Elt 19; Elt 20; Mark 4 (num 4); Elt 21]%N.
Proof. vm_compute. reflexivity. Qed.

(** C63. Initialised alike and only appended to, [EvalIRaz] and [EvalVec] hold the
    same elements and coordinator. *)
Theorem C63_append_agrees : forall free (E G S : Type) (CG : Coord E G) (WS : WordRng S) (size dg ng : N) bs
    (coord : G) (rng : S), let ops := map HAppend bs in
  (1 <= dg)%N -> (1 <= ng)%N -> (ng * dg < usize_mod)%N -> (size + hop_total ops < usize_max)%N ->
  (size / (ng * dg) + hop_names dg ng ops < usize_mod)%N ->
  exists (ev : eval_raz E count G) rng' t v,
    (do ' (ev, rng) <- ev_inc_init size dg ng coord rng; ev_hops ev rng ops) = Ok (ev, rng') /\
    ev_tree ev = Some t /\ vec_hops (vec_inc_init size coord) ops = Ok v /\
    tree_reached free t /\ elts (contents t) = fst v /\ ev_coord ev = snd v.
Proof. intros free E G S CG WS. exact (appends_agree free). Qed.
Print Assumptions C63_append_agrees.

(** [extend], the whole batch at once, is [append]. *)
Theorem C63_extend : forall (E G : Type) (CG : Coord E G) (ev : eval_vec E G) b, vec_extend ev b = vec_append ev b.
Proof. intros E G CG. exact extend_append. Qed.
Print Assumptions C63_extend.

Example C63_case :
  (do ' (ev, r) <- demo_init; do ' (ev, _) <- ev_hops ev r [HAppend 1; HAppend 2]; do t <- unwrap "" (ev_tree ev);
   Ok (elts (contents t), ev_coord ev))%N = Ok ([10; 11; 12; 13; 14; 15; 16; 17; 18; 19], 20)%N /\
  vec_hops demo_vec [HAppend 1; HAppend 2]%N = Ok ([10; 11; 12; 13; 14; 15; 16; 17; 18; 19], 20)%N.
Proof. split; vm_compute; reflexivity. Qed.

(** C64. [EvalRazNameIndex::insert] puts the batch in front of the archive point named by
    the drawn key, whatever the order of the keys ... *)
Theorem C64_insert_at_name : forall free (E G S : Type) (CG : Coord E G) (WS : WordRng S)
    (ev : eval_raz E names G) xs g dg ng batch (rng : S) order, harness free ev xs g dg ng ->
  (1 <= dg)%N -> (1 <= ng)%N -> (ng * dg < usize_mod)%N -> (ev_counter ev + batch < usize_max)%N ->
  (ev_names ev + batch / (ng * dg) + 1 < usize_mod)%N ->
  forall t, ev_tree ev = Some t -> Permutation (order (names_keys (rt_meta t))) (names_keys (rt_meta t)) ->
  point_names (contents t) <> [] ->
  let g' := snd (gen_usize g) in
  let ks := order (names_keys (rt_meta t)) in
  exists t' ev' p lev n q, contents t = p ++ Mark lev (Some n) :: q /\
    nth_error ks (N.to_nat (fst (gen_usize g) mod N.of_nat (length ks))) = Some n /\
    evn_insert order ev batch rng = Ok (ev', state_after next_word (N.to_nat (batch / dg + 1)) rng) /\
    ev_tree ev' = Some t' /\ ev_counter ev' = (ev_counter ev + batch)%N /\
    ev_names ev' = (ev_names ev + batch / (ng * dg) + 1)%N /\
    contents t' = p ++ strip (batch_atoms dg ng (nth_level rng) (ev_names ev) (ev_counter ev)
                         (drawn gen_elt (N.to_nat batch) g')) ++ Mark lev (Some n) :: q /\
    harness free ev' (elts p ++ drawn gen_elt (N.to_nat batch) g' ++ elts q)
      (state_after gen_elt (N.to_nat batch) g') dg ng.
Proof. intros free E G S CG WS. exact (evn_insert_spec free). Qed.
Print Assumptions C64_insert_at_name.

(** ... and panics if there is none. *)
Theorem C64_no_names : forall free (E G S : Type) (CG : Coord E G) (WS : WordRng S)
    (ev : eval_raz E names G) xs g dg ng batch (rng : S) order, harness free ev xs g dg ng ->
  forall t, ev_tree ev = Some t -> Permutation (order (names_keys (rt_meta t))) (names_keys (rt_meta t)) ->
  point_names (contents t) = [] ->
  evn_insert order ev batch rng = Panic "attempt to calculate the remainder with a divisor of zero".
Proof. intros free E G S CG WS. exact (evn_insert_none free). Qed.
Print Assumptions C64_no_names.

(** [append] is that of [EvalIRaz]. *)
Theorem C64_append : forall free (E G S : Type) (CG : Coord E G) (WS : WordRng S)
    (ev : eval_raz E names G) xs g dg ng batch (rng : S), harness free ev xs g dg ng ->
  (1 <= dg)%N -> (1 <= ng)%N -> (ng * dg < usize_mod)%N -> (ev_counter ev + batch < usize_max)%N ->
  (ev_names ev + batch / (ng * dg) + 1 < usize_mod)%N ->
  forall t, ev_tree ev = Some t ->
  exists t' ev', evn_append ev batch rng = Ok (ev', state_after next_word (N.to_nat (batch / dg + 1)) rng) /\
    ev_tree ev' = Some t' /\ ev_counter ev' = (ev_counter ev + batch)%N /\
    ev_names ev' = (ev_names ev + batch / (ng * dg) + 1)%N /\
    contents t' = contents t ++ strip (batch_atoms dg ng (nth_level rng) (ev_names ev) (ev_counter ev)
                              (drawn gen_elt (N.to_nat batch) g)) /\
    harness free ev' (xs ++ drawn gen_elt (N.to_nat batch) g) (state_after gen_elt (N.to_nat batch) g) dg ng.
Proof. intros free E G S CG WS. exact (evn_append_spec free). Qed.
Print Assumptions C64_append.

(** C65. The name-indexed harness initialised with more than [ng*dg] elements never
    panics in any history, with any order of the keys in each call; with fewer, the
    first insert panics. *)
Theorem C65_name_history : forall free (E G S : Type) (CG : Coord E G) (WS : WordRng S) (size dg ng : N) ops
    (coord : G) (rng : S),
  (1 <= dg)%N -> (1 <= ng)%N -> (ng * dg < size)%N -> (size < usize_mod)%N ->
  Forall (fun o : (list name -> list name) * hop => forall l, Permutation (fst o l) l) ops ->
  (hop_total (map snd ops) < usize_max)%N -> (size / (ng * dg) + hop_names dg ng (map snd ops) < usize_mod)%N ->
  exists (ev : eval_raz E names G) rng' t,
    (do ' (ev, rng) <- ev_inc_init size dg ng coord rng; evn_hops ev rng ops) = Ok (ev, rng') /\
    ev_tree ev = Some t /\ tree_reached free t /\ NoDup (point_names (contents t)) /\
    loose_hops gen_elt gen_usize (drawn gen_elt (N.to_nat size) coord, state_after gen_elt (N.to_nat size) coord)
      (map snd ops) (elts (contents t), ev_coord ev).
Proof. intros free E G S CG WS. exact (name_history free). Qed.
Print Assumptions C65_name_history.

Theorem C65_too_small : forall (E G S : Type) (CG : Coord E G) (WS : WordRng S) (size dg ng b : N) order
    (coord : G) (rng : S),
  (1 <= dg)%N -> (1 <= ng)%N -> (ng * dg < usize_mod)%N -> (size <= ng * dg)%N ->
  (forall l, Permutation (order l) l) ->
  (do ' (ev, rng) <- (ev_inc_init size dg ng coord rng : res (eval_raz E names G * S)); evn_insert order ev b rng) =
  Panic "attempt to calculate the remainder with a divisor of zero".
Proof. intros E G S CG WS. exact name_too_small. Qed.
Print Assumptions C65_too_small.

Example C65_case :
  seen (do ' (ev, r) <- demo_init; evn_hops ev r [(fun l => l, HInsert 3); (@rev _, HInsert 2); (fun l => l, HAppend 2)])%N =
    Ok [Elt 10; Elt 11; Elt 18; Elt 19; Elt 22; Mark 1 (num 5); Elt 23; Mark 1 (num 3); Elt 20; Mark 3 (num 0);
        Elt 12; Elt 13; Mark 1 (num 1); Elt 14; Elt 15; Mark 2 (num 2); Elt 16; Elt 24; Mark 1 (num 7); Elt 25]%N /\
  (do ' (ev, r) <- ev_inc_init 2 2 1 10 4; evn_insert (fun l => l) ev 1 r)%N =
    Panic "attempt to calculate the remainder with a divisor of zero".
Proof. split; vm_compute; reflexivity. Qed.

(** C66. The harness's names are drawn once each: in every history no two archive points
    share a name. *)
Theorem C66_names_distinct : forall free (E G S : Type) (CG : Coord E G) (WS : WordRng S) (size dg ng : N) ops
    (coord : G) (rng : S),
  (1 <= dg)%N -> (1 <= ng)%N -> (ng * dg < usize_mod)%N -> (size + hop_total ops < usize_max)%N ->
  (size / (ng * dg) + hop_names dg ng ops < usize_mod)%N ->
  forall (ev : eval_raz E count G) rng' t,
  (do ' (ev, rng) <- ev_inc_init size dg ng coord rng; ev_hops ev rng ops) = Ok (ev, rng') ->
  ev_tree ev = Some t -> tree_reached free t /\ NoDup (point_names (contents t)).
Proof. intros free E G S CG WS. exact (history_names free). Qed.
Print Assumptions C66_names_distinct.

(** But a harness made by [inc_from] of a harness's own tree starts its names at 0
    again: the first append can repeat a name. *)
Theorem C66_inc_from_distinct_refuted : exists ev0 r0 t0 ev r t,
  demo_init (M := count) = Ok (ev0, r0) /\ ev_tree ev0 = Some t0 /\ NoDup (point_names (contents t0)) /\
  ev_append (ev_from_tree t0 2 1 5)%N 3%N r0 = Ok (ev, r) /\ ev_tree ev = Some t /\
  ~ NoDup (point_names (contents t)).
Proof. exact inc_from_clash. Qed.
Print Assumptions C66_inc_from_distinct_refuted.

Example C66_case : (do l <- seen (do ' (ev, r) <- demo_init (M := count); do t <- unwrap "" (ev_tree ev);
    ev_append (ev_from_tree t 2 1 5) 3 r)%N; Ok (map Some (point_names l))) = Ok [num 0; num 1; num 2; num 0]%N.
Proof. vm_compute. reflexivity. Qed.

(** C67. The computations of the Raz harnesses give what [EvalVec]'s give on the same
    elements. *)
Theorem C67_computations : forall free (E M G : Type) (RM : RazMeta E M) (ev : eval_raz E M G) xs g dg ng,
  harness free ev xs g dg ng ->
  (forall O (a : O) f, ev_comp_fold a f ev = Ok (vec_comp_fold a f (xs, g))) /\
  ev_comp_fold [] (fun a e => e :: a) ev = Ok (vec_comp_rev (xs, g)) /\
  (forall O (a : O) f (n : O -> level * option name -> O), (forall a x, n a x = a) ->
     ev_comp_fold_meta a f n ev = Ok (vec_comp_fold_meta a f n (xs, g))) /\
  (forall leb, total_preorder leb -> ev_comp_max leb ev = Ok (vec_comp_max leb (xs, g))) /\
  (forall O (init : E -> O) bin, (forall a b c, bin (bin a b) c = bin a (bin b c)) ->
     ev_comp_tfold init bin ev = Ok (reduce bin (vec_comp_map init (xs, g)))) /\
  (forall O N (RN : RazMeta O N) (f : E -> O), exists t' : raz_tree O N,
     ev_comp_map f ev = Ok t' /\ tree_reached free t' /\ elts (contents t') = vec_comp_map f (xs, g)).
Proof. intros free E M G RM. exact (comps_agree free). Qed.
Print Assumptions C67_computations.

(** Those that see archive points give the values of the folds over the sequence. *)
Theorem C67_structured : forall free (E M G : Type) (RM : RazMeta E M) (ev : eval_raz E M G) t,
  ev_tree ev = Some t -> tree_reached free t ->
  (forall O (a : O) f n, ev_comp_fold_meta a f n ev = Ok (fold_left (sp_visit f n) (contents t) a)) /\
  (forall O (a : O) f ff n, ev_comp_fold_archive a f ff n ev =
     Ok match contents t with [] => a | l => sp_lr_archive f ff n (Some (NStr "start")) a l end) /\
  (contents t <> [] -> forall O (P : list (atom E level) -> O -> Prop),
    (forall init bin binnl, (forall e, P [Elt e] (init e)) ->
       (forall v x e, P (map Elt v) x -> P (map Elt (v ++ [e])) (bin x (init e))) ->
       (forall lv nm a b x y, (1 <= lv)%N -> P a x -> P b y -> P (a ++ Mark lv nm :: b) (binnl x lv nm y)) ->
       exists x, ev_comp_tfoldnl init bin binnl ev = Ok (Some x) /\ P (contents t) x) /\
    (forall init bin, (forall v, v <> [] -> exists x, init v = Ok x /\ P (map Elt v) x) ->
       (forall lv nm a b x y, (1 <= lv)%N -> P a x -> P b y ->
          exists z, bin x lv nm y = Ok z /\ P (a ++ Mark lv nm :: b) z) ->
       exists x, ev_comp_tfoldg init bin ev = Ok (Some x) /\ P (contents t) x)).
Proof. intros free E M G RM. exact (comps_structured free). Qed.
Print Assumptions C67_structured.

Example C67_case :
  (do ' (ev, r) <- demo_init; do ' (ev, _) <- ev_hops ev r [HInsert 3];
   do a <- ev_comp_fold [] (fun l x => x :: l) ev; do m <- ev_comp_max N.leb ev; Ok (a, m))%N =
  Ok ([16; 15; 14; 13; 20; 19; 18; 12; 11; 10], Some 20)%N.
Proof. vm_compute. reflexivity. Qed.
