(** * Properties of RazTree operations (C21..C32). *)

From Verif Require Import Base Spec SpecRaz StackModel AStackModel StackScripts LevelTreeModel
  TreeCursorModel RazMetaModel RazModel TreeSpec RazView RazScripts RazSession RazOps RazReach
  RazFacts RazMetaFacts RazExamples.

Notation assoc f := (forall a b c, f (f a b) c = f a (f b c)).

(** C21. [fold_up] is the associative reduction. *)
Theorem C21_fold_up : forall free (E M : Type) (RM : RazMeta E M) (t : raz_tree E M)
    (R : Type) (init : E -> R) (bin : R -> R -> R),
  tree_reached free t -> assoc bin ->
  rt_fold_up t init bin = Ok (reduce bin (map init (elts (contents t)))).
Proof.
  intros free E M RM t R init bin H A. exact (fold_up_assoc init bin t A (proj1 (tree_reached_good t H))).
Qed.
Print Assumptions C21_fold_up.

Example C21_case : tree_reached false ex_tc /\ assoc (@app nat) /\
  reduce (@app nat) (map (fun x => [x]) (elts (contents ex_tc))) = Some [1; 2; 3; 4; 5; 6].
Proof. split; [exact ex_tc_reached|]. split; [intros; now rewrite app_assoc|reflexivity]. Qed.

(** C22. Folds that see the archive points. [P l x]: [x] interprets the atoms [l]. *)
Theorem C22_fold_up_gauged : forall free (E M : Type) (RM : RazMeta E M) (t : raz_tree E M)
    (R : Type) (init : list E -> res R) (bin : R -> level -> option name -> R -> res R)
    (P : list (atom E level) -> R -> Prop),
  tree_reached free t ->
  (forall v, v <> [] -> exists x, init v = Ok x /\ P (map Elt v) x) ->
  (forall lv nm a b x y, (1 <= lv)%N -> P a x -> P b y ->
     exists z, bin x lv nm y = Ok z /\ P (a ++ Mark lv nm :: b) z) ->
  contents t <> [] ->
  exists x, rt_fold_up_gauged t init bin = Ok (Some x) /\ P (contents t) x.
Proof.
  intros free E M RM t R init bin P H Hi Hb.
  exact (fold_up_gauged_ok init bin P t Hi Hb (proj1 (tree_reached_good t H))).
Qed.
Print Assumptions C22_fold_up_gauged.

Theorem C22_fold_up_nl : forall free (E M : Type) (RM : RazMeta E M) (t : raz_tree E M)
    (R : Type) (init : E -> R) (bin : R -> R -> R) (binnl : R -> level -> option name -> R -> R)
    (P : list (atom E level) -> R -> Prop),
  tree_reached free t ->
  (forall e, P [Elt e] (init e)) ->
  (forall v x e, P (map Elt v) x -> P (map Elt (v ++ [e])) (bin x (init e))) ->
  (forall lv nm a b x y, (1 <= lv)%N -> P a x -> P b y -> P (a ++ Mark lv nm :: b) (binnl x lv nm y)) ->
  contents t <> [] ->
  exists x, rt_fold_up_nl t init bin binnl = Ok (Some x) /\ P (contents t) x.
Proof.
  intros free E M RM t R init bin binnl P H H1 H2 H3.
  exact (fold_up_nl_ok init bin binnl P t H1 H2 H3 (proj1 (tree_reached_good t H))).
Qed.
Print Assumptions C22_fold_up_nl.

(** The identity interpretation: the fold rebuilds exactly the sequence. *)
Example C22_case : tree_reached false ex_tc /\ contents ex_tc <> [] /\
  rt_fold_up_gauged ex_tc (fun v => Ok (map Elt v)) (fun x lv nm y => Ok (x ++ Mark lv nm :: y))
    = Ok (Some (contents ex_tc)) /\
  rt_fold_up_nl ex_tc (fun e => [Elt e]) (@app _) (fun x lv nm y => x ++ Mark lv nm :: y)
    = Ok (Some (contents ex_tc)).
Proof. split; [exact ex_tc_reached|]. split; [discriminate|]. split; vm_compute; reflexivity. Qed.

(** C23, C24, C25. Left to right folds. *)
Theorem C23_fold_lr : forall free (E M : Type) (RM : RazMeta E M) (t : raz_tree E M)
    (A : Type) (init : A) (bin : A -> E -> A),
  tree_reached free t -> rt_fold_lr t init bin = fold_left bin (elts (contents t)) init.
Proof. intros free E M RM t A init bin H. exact (fold_lr_elts init bin t (proj1 (tree_reached_good t H))). Qed.
Print Assumptions C23_fold_lr.

Example C23_case : tree_reached false ex_tc /\
  rt_fold_lr ex_tc 0%N (fun a e => 10 * a + N.of_nat e)%N = 123456%N.
Proof. split; [exact ex_tc_reached|]. vm_compute. reflexivity. Qed.

Theorem C24_fold_lr_meta : forall free (E M : Type) (RM : RazMeta E M) (t : raz_tree E M)
    (A : Type) (init : A) (bin : A -> E -> A) (meta : A -> level * option name -> A),
  tree_reached free t -> rt_fold_lr_meta t init bin meta = fold_left (sp_visit bin meta) (contents t) init.
Proof.
  intros free E M RM t A init bin meta H. exact (fold_lr_meta_atoms init bin meta t (proj1 (tree_reached_good t H))).
Qed.
Print Assumptions C24_fold_lr_meta.

Example C24_case : tree_reached false ex_tc /\
  rt_fold_lr_meta ex_tc [] (fun a e => a ++ [inl e]) (fun a p => a ++ [inr p]) =
  [inl 1; inl 2; inr (2%N, Some (in_tree nm_a)); inl 3; inr (3%N, None); inl 4; inl 5;
   inr (1%N, Some (in_tree nm_b)); inl 6].
Proof. split; [exact ex_tc_reached|]. vm_compute. reflexivity. Qed.

Theorem C25_fold_lr_archive : forall free (E M : Type) (RM : RazMeta E M) (t : raz_tree E M)
    (A : Type) (init : A) (bin : A -> E -> A) (fin : A -> option name -> A) (meta : A -> level -> A),
  tree_reached free t ->
  rt_fold_lr_archive t init bin fin meta =
  match contents t with
  | [] => init
  | l => sp_lr_archive bin fin meta (Some (NStr "start")) init l
  end.
Proof.
  intros free E M RM t A init bin fin meta H.
  exact (fold_lr_archive_atoms init bin fin meta t (proj1 (tree_reached_good t H))).
Qed.
Print Assumptions C25_fold_lr_archive.

Inductive ev := VElt (n : nat) | VFin (n : option name) | VLev (l : N).
Example C25_case : tree_reached false ex_tc /\
  rt_fold_lr_archive ex_tc [] (fun a e => a ++ [VElt e]) (fun a n => a ++ [VFin n]) (fun a l => a ++ [VLev l]) =
  [VElt 1; VElt 2; VFin (Some (NStr "start")); VLev 2; VElt 3; VFin (Some (in_tree nm_a)); VLev 3;
   VElt 4; VElt 5; VFin None; VLev 1; VElt 6; VFin (Some (in_tree nm_b))].
Proof. split; [exact ex_tc_reached|]. vm_compute. reflexivity. Qed.

(** C26. [map]. *)
Theorem C26_map : forall free (E M R N : Type) (RM : RazMeta E M) (RN : RazMeta R N) (t : raz_tree E M) (f : E -> R),
  tree_reached free t ->
  exists t' : raz_tree R N, rt_map f t = Ok t' /\ tree_reached free t' /\
    contents t' = sp_map f (contents t) /\
    option_map skeleton (rt_tree t') = option_map skeleton (rt_tree t) /\
    treetop_meta (rt_tree t') = Ok (rt_meta t').
Proof.
  intros free E M R N RM RN t f H.
  destruct (map_ok (N := N) f t (tree_reached_good t H)) as (t' & T & G & _ & C & S).
  exact (ex_intro _ t' (conj T (conj (TR_map _ _ _ _ _ _ _ f t t' H T) (conj C (conj S (proj2 G)))))).
Qed.
Print Assumptions C26_map.

Example C26_case : tree_reached false ex_tc /\
  (do t <- rt_map (N := names) (fun n => n * n) ex_tc; Ok (elts (contents t), length (names_keys (rt_meta t))))
  = Ok ([1; 4; 9; 16; 25; 36], 2).
Proof. split; [exact ex_tc_reached|]. vm_compute. reflexivity. Qed.

(** C27, C28. Conversion of archive stacks. *)
Notation archives_in P ops := (Forall (fun o => match o with OpArchive _ m => P m | _ => True end) ops).

Theorem C27_at_tail : forall (E M : Type) (RM : RazMeta E M) ops obs (s : astack E level),
  as_run as_new ops = Ok (obs, s) -> archives_in (fun m => m < u32_max)%N ops ->
  exists t : raz_tree E M, from_at_tail s = Ok t /\
    contents t = rev (snd (sp_run [] ops)) /\
    (archives_in (fun m => 1 <= m)%N ops -> as_active_len s <> 0 \/ as_is_empty s = true -> canonical t).
Proof. intros E M RM ops obs s. exact (tail_conversion ops obs s). Qed.
Print Assumptions C27_at_tail.

Theorem C28_at_head : forall (E M : Type) (RM : RazMeta E M) ops obs (s : astack E level),
  as_run as_new ops = Ok (obs, s) -> archives_in (fun m => 1 <= m <= u32_max)%N ops ->
  exists t : raz_tree E M, from_at_head s = Ok t /\
    contents t = snd (sp_run [] ops) /\
    (as_active_len s <> 0 \/ as_is_empty s = true -> canonical t).
Proof. intros E M RM ops obs s. exact (head_conversion ops obs s). Qed.
Print Assumptions C28_at_head.

(** Outside these ranges the conversions panic. *)
Definition arch1 (m : N) : astack nat level := as_push (snd (as_archive (as_push as_new 1) None m)) 2.
Theorem C27_u32_max_panics_refuted : exists msg, from_at_tail (M := count) (arch1 u32_max) = Panic msg.
Proof. eexists. vm_compute. reflexivity. Qed.
Print Assumptions C27_u32_max_panics_refuted.
Theorem C28_level_zero_panics_refuted : exists msg, from_at_head (M := count) (arch1 0%N) = Panic msg.
Proof. eexists. vm_compute. reflexivity. Qed.
Print Assumptions C28_level_zero_panics_refuted.

Definition stack_ops : list (aop nat level) :=
  [OpPush 1; OpPush 2; OpArchive (Some nm_a) 3%N; OpPush 3; OpArchive None 1%N; OpPush 4; OpPop;
   OpPush 5; OpArchive (Some nm_b) 7%N; OpPush 6].
Example C27_C28_case : archives_in (fun m => 1 <= m < u32_max)%N stack_ops /\
  snd (sp_run [] stack_ops) =
    [Elt 6; Mark 7%N (Some nm_b); Elt 5; Mark 1%N None; Elt 3; Mark 3%N (Some nm_a); Elt 2; Elt 1] /\
  (do ' (_, s) <- as_run as_new stack_ops; do t <- from_at_tail (M := count) s;
   Ok (elts (contents t))) = Ok [1; 2; 3; 5; 6] /\
  (do ' (_, s) <- as_run as_new stack_ops; do t <- from_at_head (M := count) s;
   Ok (elts (contents t))) = Ok [6; 5; 3; 2; 1].
Proof.
  split; [repeat constructor; vm_compute; try reflexivity; discriminate|].
  split; [reflexivity|]. split; vm_compute; reflexivity.
Qed.

(** C29. Converting a just-archived stack: every [fold_up] panics, ... *)
Theorem C29_just_archived_panics : forall (E M : Type) (RM : RazMeta E M) (R : Type) ops obs (s : astack E level)
    (init : E -> R) (bin : R -> R -> R),
  as_run as_new ops = Ok (obs, s) -> archives_in (fun m => 1 <= m < u32_max)%N ops ->
  as_active_len s = 0 -> as_is_empty s = false ->
  (exists t : raz_tree E M, from_at_tail s = Ok t /\ rt_fold_up t init bin = Panic "leaf with empty vec") /\
  (exists t : raz_tree E M, from_at_head s = Ok t /\ rt_fold_up t init bin = Panic "leaf with empty vec").
Proof. intros E M RM R ops obs s init bin. exact (just_archived_panics ops obs s init bin). Qed.
Print Assumptions C29_just_archived_panics.

(** ... and after a join, [pop_right] answers [None] although elements follow. *)
Definition just_archived : astack nat level := snd (as_archive (as_push (as_push as_new 1) 2) None 3%N).
Theorem C29_pop_stops_early_refuted : exists t v j z z' : _,
  from_at_tail (M := count) just_archived = Ok t /\ rt_from_vec [7] = Ok (Some v) /\
  rt_join t 5%N None v = Ok (Some j) /\ elts (contents j) = [1; 2; 7] /\ rt_focus_left j = Ok z /\
  zrun z [OPopR; OPopR; OPeekR; OPopR; OPopR] =
    Ok ([OutElt (Some 1); OutElt (Some 2); OutElt None; OutElt None; OutElt (Some 7)], z').
Proof.
  do 5 eexists. split; [vm_compute; reflexivity|]. split; [vm_compute; reflexivity|].
  split; [vm_compute; reflexivity|]. split; [vm_compute; reflexivity|].
  split; vm_compute; reflexivity.
Qed.
Print Assumptions C29_pop_stops_early_refuted.

Example C29_case : exists obs, as_run as_new [OpPush 1; OpPush 2; OpArchive None 3%N] = Ok (obs, just_archived) /\
  as_active_len just_archived = 0 /\ as_is_empty just_archived = false.
Proof. eexists. split; [vm_compute; reflexivity|]. split; reflexivity. Qed.

(** C30. [join]. *)
Theorem C30_join : forall free (E M : Type) (RM : RazMeta E M) (a b : raz_tree E M) lev nm,
  tree_reached free a -> tree_reached free b -> (1 <= lev)%N -> contents a <> [] -> contents b <> [] ->
  exists t, rt_join a lev nm b = Ok (Some t) /\
    contents t = contents a ++ Mark lev nm :: contents b /\
    (canonical t <-> canonical a /\ canonical b /\ lev_lt (rt_tree a) lev /\ lev_le (rt_tree b) lev).
Proof.
  intros free E M RM a b lev nm Ha Hb Hl Na Nb.
  destruct (join_ok a b lev nm (tree_reached_good a Ha) (tree_reached_good b Hb) Hl Na Nb) as (t & J & _ & C & K).
  exact (ex_intro _ t (conj J (conj C K))).
Qed.
Print Assumptions C30_join.

Theorem C30_join_empty : forall free (E M : Type) (RM : RazMeta E M) (a b : raz_tree E M) lev nm,
  tree_reached free a -> tree_reached free b -> contents a = [] \/ contents b = [] ->
  rt_join a lev nm b = Ok None.
Proof.
  intros free E M RM a b lev nm Ha Hb. exact (join_none a b lev nm (tree_reached_good a Ha) (tree_reached_good b Hb)).
Qed.
Print Assumptions C30_join_empty.

Example C30_case : tree_reached false ex_tc /\ contents ex_tc <> [] /\
  lev_lt (rt_tree ex_tc) 4%N /\ ~ lev_lt (rt_tree ex_tc) 3%N /\
  (do o <- rt_join ex_tc 4%N (Some nm_a) ex_tc; Ok (option_map (fun t => elts (contents t)) o))
    = Ok (Some [1; 2; 3; 4; 5; 6; 1; 2; 3; 4; 5; 6]).
Proof.
  split; [exact ex_tc_reached|]. split; [discriminate|]. split; [reflexivity|]. split; [vm_compute; discriminate|].
  vm_compute. reflexivity.
Qed.

(** C31. [from_vec], [empty], [is_empty]. *)
Theorem C31_from_vec : forall (E M : Type) (RM : RazMeta E M) (v : list E),
  match v with
  | [] => rt_from_vec (M := M) v = Ok None
  | _ => exists t, rt_from_vec (M := M) v = Ok (Some t) /\ canonical t /\ contents t = map Elt v
  end.
Proof. intros E M RM. exact from_vec_ok. Qed.
Print Assumptions C31_from_vec.

Theorem C31_empty : forall (E M : Type) (RM : RazMeta E M),
  exists t, rt_empty (E := E) (M := M) = Ok t /\ canonical t /\ contents t = [].
Proof. intros E M RM. exact empty_ok. Qed.
Print Assumptions C31_empty.

Theorem C31_is_empty : forall free (E M : Type) (RM : RazMeta E M) (t : raz_tree E M), tree_reached free t ->
  rt_is_empty t = match contents t with [] => true | _ => false end /\
  (contents t = [] <-> elts (contents t) = []).
Proof. intros free E M RM t H. exact (is_empty_ok t (tree_reached_good t H)). Qed.
Print Assumptions C31_is_empty.

Definition one : raz_tree nat count := Eval vm_compute in raz_to_tree (run_raz [OPushL 1]).
Example C31_case : tree_reached false ex_tc /\ rt_is_empty ex_tc = false /\
  (do z <- rt_focus_left one; do ' (_, z) <- pop_right z; do t <- unfocus z; Ok (rt_is_empty t)) = Ok true.
Proof. split; [exact ex_tc_reached|]. split; vm_compute; reflexivity. Qed.

(** C32. Level 0 archive points lose data. *)
Theorem C32_level_zero_loses_data_refuted : exists (ops : list (zop nat)) outs z t,
  zrun (raz_new : raz nat count) ops = Ok (outs, z) /\ unfocus z = Ok t /\
  Forall (fun o => match o with OArchL lev _ => lev = 0%N | OPushL _ => True | _ => False end) ops /\
  snd (zip_run ([], []) ops) = ([2; 1], []) /\
  rt_meta t = Count 1 /\ rt_fold_up t (fun e => [e]) (@app nat) = Ok (Some [1]).
Proof.
  exists [OPushL 1; OArchL 0%N None; OPushL 2]. do 3 eexists.
  split; [vm_compute; reflexivity|]. split; [vm_compute; reflexivity|]. split; [repeat constructor|].
  split; [reflexivity|]. split; vm_compute; reflexivity.
Qed.
Print Assumptions C32_level_zero_loses_data_refuted.
