(** * Properties of the experiments, C74 to C77. *)

From Verif Require Import Base Spec SpecRaz StackModel AStackModel StackScripts LevelTreeModel TreeCursorModel RazMetaModel RazModel
  TreeSpec RazView RazFrom RazScripts RazReach SkiplistModel AccumModel AccumScripts AccumProofs ExampleModel ExampleSpec
  EvalModel EvalSpec EvalScripts EvalCases ActionModel ActionSpec ActionProofs ActionUses.

(** C74. A sequence test makes the data, computes on it, then edits and computes in turn
    as often as asked; each computation is on the data of the edit before it. It fails if
    and only if one of these steps fails. *)
Theorem C74_sequence : forall (D O S : Type) (init : creator D S) (edit : editor D S) (comp : computor O D S) changes
    (rng : S) eds outs s',
  test_seq init edit comp changes rng = Ok (eds, outs, s') <->
  exists d s o s1 ds os, init rng = Ok (d, s) /\ comp d s = Ok (o, s1) /\ goes edit comp d s1 ds os s' /\
    length os = N.to_nat changes /\ eds = d :: ds /\ outs = o :: os.
Proof. intros D O S. exact test_seq_goes. Qed.
Print Assumptions C74_sequence.

Theorem C74_entries : forall (D O S : Type) (init : creator D S) (edit : editor D S) (comp : computor O D S) changes
    (rng : S) eds outs s',
  test_seq init edit comp changes rng = Ok (eds, outs, s') ->
  length eds = Datatypes.S (N.to_nat changes) /\ length outs = Datatypes.S (N.to_nat changes).
Proof.
  intros D O S init edit comp changes rng eds outs s' H. apply test_seq_goes in H.
  destruct H as (d & s & o & s1 & ds & os & _ & _ & Go & L & -> & ->). apply goes_lengths in Go. simpl. split; congruence.
Qed.
Print Assumptions C74_entries.

(** Doubling and adding one in turn, the sums with the generator's value. *)
Example C74_case :
  test_seq (fun s => Ok (5, s + 1))%N (fun d s => Ok (2 * d, s + 1))%N (fun d s => Ok (d + s, s))%N 3 10%N =
  Ok ([5; 10; 20; 40], [16; 22; 33; 54], 14)%N.
Proof. vm_compute. reflexivity. Qed.

(** C75. An experiment on [EvalIRaz] never panics, and its [i]-th answer is the answer
    for the list that [i] edits make of the generated elements. For any computation that
    gives an answer for every reachable tree (of levels up to 64) of such elements ... *)
Theorem C75_answers : forall free (E G S O : Type) (CG : Coord E G) (WS : WordRng S) (size dg ng changes : N) o
    (Q : E -> Prop) (comp : computor O (eval_raz E count G) S) (P : list E -> O -> Prop) (coord : G) (rng : S),
  fits size dg ng changes o -> (forall g : G, Q (fst (gen_elt g))) ->
  (forall ev xs g, harness free ev xs g dg ng ->
     (forall t, ev_tree ev = Some t -> levels_in (fun l => (l <= 64)%N) (contents t)) -> Forall Q xs ->
     exists x, (forall r, comp ev r = Ok (x, r)) /\ (xs <> [] -> P xs x)) ->
  exists ds os r,
    test_seq (incremental_init ev_inc_init size dg ng coord) (iraz_editor o) comp changes rng = Ok (ds, os, r) /\
    length os = Datatypes.S (N.to_nat changes) /\
    forall i x, nth_error os i = Some x -> exists xs g,
      edited gen_elt gen_usize size coord o i = Some (xs, g) /\
      N.of_nat (length xs) = (size + N.of_nat i * hop_batch o)%N /\ P xs x.
Proof. intros free E G S O CG WS size dg ng changes o Q comp P coord rng. exact (run_iraz free size dg ng changes o Q comp P coord rng). Qed.
Print Assumptions C75_answers.

(** ... which the computations of the examples do. *)
Theorem C75_filter : forall free (E M G S : Type) (RM : RazMeta E M) p (ev : eval_raz E M G) xs g dg ng, harness free ev xs g dg ng ->
  exists x, (forall r : S, use_filter p ev r = Ok (x, r)) /\
    (xs <> [] -> exists t', x = Some t' /\ elts (contents t') = filter p xs).
Proof. intros free E M G S RM. exact (filter_use free). Qed.
Print Assumptions C75_filter.
Theorem C75_reverse : forall free (E M G S : Type) (RM : RazMeta E M) (ev : eval_raz E M G) xs g dg ng, harness free ev xs g dg ng ->
  exists x, (forall r : S, use_reverse ev r = Ok (x, r)) /\
    (xs <> [] -> exists t', x = Some t' /\ elts (contents t') = rev xs).
Proof. intros free E M G S RM. exact (reverse_use free). Qed.
Print Assumptions C75_reverse.
Theorem C75_max : forall free (E M G S : Type) (RM : RazMeta E M) leb (ev : eval_raz E M G) xs g dg ng,
  total_preorder leb -> harness free ev xs g dg ng ->
  exists x, (forall r : S, use_max leb ev r = Ok (x, r)) /\
    (xs <> [] -> exists m, x = Some m /\ last_greatest leb xs m /\ max_native leb xs = Ok m).
Proof. intros free E M G S RM. exact (max_use free). Qed.
Print Assumptions C75_max.
Theorem C75_to_list : forall free (E M G S A : Type) (RM : RazMeta E M) (IF : IFace E A) (ok : level -> Prop) (ev : eval_raz E M G) xs g dg ng,
  is_lifo IF ok -> (forall lv, (1 <= lv)%N -> ok lv) -> harness free ev xs g dg ng ->
  exists x, (forall r : S, use_to_list IF ev r = Ok (x, r)) /\ answers_as IF ok x (rev xs).
Proof. intros free E M G S A RM. exact (to_list_use free). Qed.
Print Assumptions C75_to_list.
Theorem C75_unique : forall free (E M G S : Type) (RM : RazMeta E M) keqb my_hash debug pathlen (ev : eval_raz E M G) xs g dg ng,
  (forall a b : E, keqb a b = true <-> a = b) -> 0 < pathlen -> (debug = true -> pathlen < 64) -> harness free ev xs g dg ng ->
  exists s, (forall r : S, use_unique keqb my_hash debug pathlen ev r = Ok (s, r)) /\
    forall k, sk_get keqb my_hash debug s k = Ok (if existsb (keqb k) xs then Some tt else None).
Proof. intros free E M G S RM. exact (unique_use free). Qed.
Print Assumptions C75_unique.
Theorem C75_adder : forall free (M M' G S : Type) (RM : RazMeta N M) (RM' : RazMeta token M') (ev : eval_raz N M G) xs g dg ng (coord : G),
  harness free ev xs g dg ng ->
  (forall t, ev_tree ev = Some t -> levels_in (fun lv => lv <= 64)%N (contents t)) -> Forall in_lang xs ->
  exists s v, (forall r : S, use_adder (M' := M') dg ng coord ev r = Ok (s, r)) /\ adder_vec xs = Ok v /\
    answers_as (astack_iface N) (fun lv => lv < u32_max)%N s (rev v).
Proof. intros free M M' G S RM RM'. exact (adder_use free). Qed.
Print Assumptions C75_adder.

Theorem C75_to_string : forall free (E M G S O N : Type) (RM : RazMeta E M) (RN : RazMeta O N) (f : E -> O)
    (ev : eval_raz E M G) xs g dg ng, harness free ev xs g dg ng ->
  exists t' : raz_tree O N, (forall r : S, use_to_string f ev r = Ok (t', r)) /\ tree_reached free t' /\
    elts (contents t') = map f xs /\ forall r : S, use_to_string_vec f (xs, g) r = Ok (map f xs, r).
Proof. intros free E M G S O N RM RN. exact (to_string_use free). Qed.
Print Assumptions C75_to_string.
Theorem C75_find_max : forall free (E M G S : Type) (RM : RazMeta E M) leb (ev : eval_raz E M G) xs g dg ng,
  total_preorder leb -> harness free ev xs g dg ng ->
  exists x, (forall r : S, use_find_max leb ev r = Ok (x, r)) /\
    (forall r : S, use_find_max_vec leb (xs, g) r = Ok (x, r)) /\
    (xs <> [] -> exists m, x = Some m /\ last_greatest leb xs m).
Proof. intros free E M G S RM. exact (find_max_use free). Qed.
Print Assumptions C75_find_max.

(** Five elements 10..14, batches of two, three changes: the greatest elements, the even
    elements. *)
Example C75_case : fits 5 2 1 3 (HInsert 2) /\
  (do ' (_, os, _) <- test_seq (incremental_init ev_inc_init 5 2 1 10) (iraz_editor (HInsert 2)) (use_max N.leb) 3 4; Ok os)%N =
    Ok [Some 14; Some 17; Some 20; Some 23]%N /\
  (do ' (_, os, _) <- test_seq (incremental_init ev_inc_init 5 2 1 10) (iraz_editor (HInsert 2)) (use_filter N.even) 3 4;
   Ok (map (option_map (fun t => elts (contents t))) os))%N =
    Ok [Some [10; 12; 14]; Some [16; 10; 12; 14]; Some [16; 10; 20; 12; 14]; Some [16; 10; 22; 20; 12; 14]]%N.
Proof. split; [repeat split; vm_compute; congruence|split; vm_compute; reflexivity]. Qed.
(** The same run with a map to twice the element, and with the greatest element. *)
Example C75_case_map :
  (do ' (_, os, _) <- test_seq (incremental_init ev_inc_init 5 2 1 10) (iraz_editor (HInsert 2)) (use_to_string (N := count) (N.mul 2)) 1 4;
   Ok (map (fun t => elts (contents t)) os))%N = Ok [[20; 22; 24; 26; 28]; [32; 34; 20; 22; 24; 26; 28]]%N /\
  (do ' (_, os, _) <- test_seq (incremental_init ev_inc_init 5 2 1 10) (iraz_editor (HInsert 2)) (use_find_max N.leb) 1 4; Ok os)%N =
    Ok [Some 14; Some 17]%N.
Proof. split; vm_compute; reflexivity. Qed.

(** C76. An experiment on [EvalVec] answers for the list that its own edits make ... *)
Theorem C76_vec : forall (E G S O : Type) (CG : Coord E G) o (comp : computor O (eval_vec E G) S) size dg ng changes
    (coord : G) (rng : S),
  (forall ev, fst ev <> [] \/ (exists b, o = HAppend b) -> exists x, forall r, comp ev r = Ok (x, r)) ->
  (1 <= size)%N \/ (exists b, o = HAppend b) ->
  exists ds os,
    test_seq (incremental_init vec_m_init size dg ng coord) (vec_editor o) comp changes rng = Ok (ds, os, rng) /\
    length os = Datatypes.S (N.to_nat changes) /\
    forall i x, nth_error os i = Some x -> exists ev,
      vec_edited gen_elt gen_usize size coord o i = Some ev /\ forall r, comp ev r = Ok (x, r).
Proof. intros E G S O CG. exact vec_experiment. Qed.
Print Assumptions C76_vec.

(** (with these answers of the examples; [None] of the empty vector is unwrapped by max.rs) ... *)
Theorem C76_answers : forall (E G S : Type) (p : E -> bool) leb xs (g : G) (r : S), total_preorder leb ->
  use_filter_vec p (xs, g) r = Ok (filter p xs, r) /\
  use_reverse_vec (xs, g) r = Ok (rev xs, r) /\
  match xs with
  | [] => use_max_vec leb (xs, g) r = Panic "unwrap on None"
  | _ => exists m, use_max_vec leb (xs, g) r = Ok (m, r) /\ last_greatest leb xs m
  end.
Proof. intros E G S. exact vec_uses. Qed.
Print Assumptions C76_answers.
Theorem C76_adder : forall (G S : Type) (coord : G) xs (g : G), Forall in_lang xs ->
  exists v, (forall r : S, use_adder_vec coord (xs, g) r = Ok (v, r)) /\ adder_vec xs = Ok v.
Proof. intros G S. exact adder_vec_use. Qed.
Print Assumptions C76_adder.

(** ... which, when batches are appended, is the list of the experiment on [EvalIRaz] ... *)
Theorem C76_appends : forall (E G : Type) (CG : Coord E G) size (coord : G) b i,
  vec_edited (gen_elt (E := E)) gen_usize size coord (HAppend b) i = edited gen_elt gen_usize size coord (HAppend b) i.
Proof. intros E G CG. exact appends_same. Qed.
Print Assumptions C76_appends.

(** ... but not when they are inserted, as all examples do: from the second answer on the
    two experiments work on different data. *)
Theorem C76_same_data_refuted : exists size dg ng changes b (coord rng : N), fits size dg ng changes (HInsert b) /\
  exists ds os r ds' os' r',
    test_seq (incremental_init ev_inc_init size dg ng coord) (iraz_editor (HInsert b)) (use_max N.leb) changes rng = Ok (ds, os, r) /\
    test_seq (incremental_init vec_m_init size dg ng coord) (vec_editor (HInsert b)) (use_max_vec N.leb) changes rng = Ok (ds', os', r') /\
    hd None os = Some (hd 0%N os') /\ nth_error os 1 <> option_map Some (nth_error os' 1).
Proof.
  exists 5%N, 2%N, 1%N, 1%N, 1%N, 10%N, 4%N. split; [repeat split; vm_compute; congruence|].
  do 6 eexists. split; [vm_compute; reflexivity|]. split; [vm_compute; reflexivity|]. split; [reflexivity|]. vm_compute. discriminate.
Qed.
Print Assumptions C76_same_data_refuted.

Example C76_case :
  (do ' (ds, os, _) <- test_seq (incremental_init vec_m_init 3 2 1 10) (vec_editor (HAppend 2)) (use_reverse_vec (S := N)) 2 4; Ok (map snd ds, os))%N =
    Ok ([13; 15; 17], [[12; 11; 10]; [14; 13; 12; 11; 10]; [16; 15; 14; 13; 12; 11; 10]])%N /\
  vec_edited gen_elt gen_usize 3 10%N (HAppend 2) 2 = Some ([10; 11; 12; 13; 14; 15; 16], 17)%N.
Proof. split; vm_compute; reflexivity. Qed.

(** C77. A build test builds from the same coordinator for each size and then inserts one
    batch: its builds hold the first elements of one and the same list. *)
Theorem C77_builds : forall free (E G S : Type) (CG : Coord E G) (WS : WordRng S) (size_at : N -> N) dg ng batch (coord : G) count (rng : S),
  (forall j, (j < count)%N -> fits (size_at j) dg ng 1 (HInsert batch)) -> (1 <= dg)%N -> (1 <= ng)%N -> (ng * dg < usize_mod)%N ->
  exists bs es rng',
    build_test ev_inc_init ev_insert size_at dg ng coord batch count rng = Ok (bs, es, rng') /\
    length bs = N.to_nat count /\ length es = N.to_nat count /\
    forall j ev ev', nth_error bs j = Some ev -> nth_error es j = Some ev' ->
      let first := start gen_elt (size_at (N.of_nat j)) coord in
      harness free ev (fst first) (snd first) dg ng /\
      exists xs' g', plain_hop gen_elt gen_usize first (HInsert batch) = Some (xs', g') /\ harness free ev' xs' g' dg ng.
Proof.
  intros free E G S CG WS size_at dg ng batch coord count rng F D Ng Ov.
  apply (build_test_ok free size_at dg ng batch coord count rng D Ng Ov).
  intros j Hj. destruct (F j Hj) as (A & _ & _ & _ & B & C). rewrite N.mul_1_l in B, C. cbn [hop_batch] in B, C.
  rewrite N.add_assoc in C. auto.
Qed.
Print Assumptions C77_builds.

Theorem C77_prefixes : forall (E G : Type) (CG : Coord E G) (coord : G) a b, (a <= b)%N ->
  exists more, fst (start (gen_elt (E := E)) b coord) = fst (start gen_elt a coord) ++ more.
Proof.
  intros E G CG coord a b H. apply drawn_prefix. lia.
Qed.
Print Assumptions C77_prefixes.

(** Builds of 1, 3 and 9 elements. *)
Example C77_case :
  (do ' (bs, es, _) <- build_test ev_inc_init ev_insert (fun i => 3 ^ i) 2 1 10 2 3 4;
   Ok (map (fun ev => option_map (fun t => elts (contents t)) (ev_tree ev)) (bs ++ es)))%N =
  Ok [Some [10]; Some [10; 11; 12]; Some [10; 11; 12; 13; 14; 15; 16; 17; 18];
      Some [12; 13; 10]; Some [10; 14; 15; 11; 12]; Some [10; 20; 21; 11; 12; 13; 14; 15; 16; 17; 18]]%N.
Proof. vm_compute. reflexivity. Qed.
