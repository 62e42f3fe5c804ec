(** * A stack converted and the tree computed on, both memoised over the store. *)

From Verif Require Import Base BaseFacts Spec SpecRaz StackModel AStackModel StackProofs LevelTreeModel TreeSpec TreeProofs TreeCursorModel
  RazMetaModel RazModel RazView RazProofs RazFrom RazScripts RazReach RazMetaFacts MemoModel MemoSpec MemoProofs MemoHistory MemoFromModel MemoFromSpec MemoFrom MemoFromWork
  MemoFromUse StoreModel StoreSpec StoreScripts StoreProofs StoreRaz StoreHistory StoreNs StoreMapModel StoreMapSpec StoreMapProofs IncModel IncSpec
  IncProofs IncCost IncMapModel IncMapSpec IncMapCost IncFromModel IncFromSpec IncFromProofs IncFromCost.

Lemma Forall2_rev {A B} (P : A -> B -> Prop) l l' : Forall2 P l l' -> Forall2 P (rev l) (rev l').
Proof. induction 1 as [|x y l l' H F IH]; [constructor|]. cbn [rev]. apply Forall2_app; [exact IH|]. now constructor. Qed.
Lemma Forall2_trans {A B C} (P : A -> B -> Prop) (R : B -> C -> Prop) (S : A -> C -> Prop) l : (forall a b c, P a b -> R b c -> S a c) ->
  forall l' l2, Forall2 P l l' -> Forall2 R l' l2 -> Forall2 S l l2.
Proof.
  intros H. induction l as [|a l IH]; intros l' l2 F G; inversion F; subst; inversion G; subst; constructor; eauto.
Qed.

Section Pipe.
Context {E M : Type} {RM : RazMeta E M} (eqE : forall x y : E, {x = y} + {x <> y})
  (eqD : forall x y : tree_data E M, {x = y} + {x <> y}) (q : list name) {Nsp : here}.
Notation rdata := (tree_data E M).
Notation elem := (level * list E)%type.
Notation event := (cevent elem rdata (@vkey E M) (sastack E level) (sraz_tree E M)).
Implicit Types (w : astack E level) (e : event) (l : list (atom E level)).

Lemma has_point_rev n l : has_point n (rev l) <-> has_point n l.
Proof. unfold has_point. rewrite marks_rev, map_rev. symmetry. apply in_rev. Qed.
Lemma orderly_rev (ls : list (list (atom E level))) : orderly_points ls -> orderly_points (map (@rev _) ls).
Proof.
  induction ls as [|l ls IH]; [auto|]. cbn [map orderly_points]. intros (O & N & D & F). split; [auto|]. split; [|split].
  - intros p H. apply N. rewrite marks_rev in H. now apply in_rev.
  - rewrite marks_rev, map_rev. now apply NoDup_rev.
  - intros n H. rewrite has_point_rev in H. specialize (F n H). destruct ls as [|p ls]; [exact I|]. cbn [map]. rewrite has_point_rev.
    destruct F as [F|F]; [now left|right]. intros u Iu. change (In u (map (@rev _) (p :: ls))) in Iu. apply in_map_iff in Iu.
    destruct Iu as (v & <- & Iv). rewrite has_point_rev. auto.
Qed.

Lemma ready_of lo hi w l : ready lo hi w l -> stack_of w l.
Proof. intros (ops & ((obs & R) & _) & L). now exists ops, obs. Qed.
Lemma ready_tail w l : ready 1%N u32_max w l -> exists t : raz_tree E M, from_at_tail w = Ok t /\ contents t = rev l /\ tree_reached false t.
Proof.
  intros (ops & S & <-). pose proof S as ((obs & R) & L & _). destruct (tail_conversion (RM := RM) ops obs w R) as (t & T & C & _).
  - eapply Forall_impl; [|exact L]. intros o Ho. destruct o; auto; lia.
  - exists t. split; [exact T|]. split; [exact C|]. exact (TR_tail false E M RM ops w t S T).
Qed.
Lemma ready_head w l : ready 1%N (u32_max + 1)%N w l -> exists t : raz_tree E M, from_at_head w = Ok t /\ contents t = l /\ tree_reached false t.
Proof.
  intros (ops & S & <-). pose proof S as ((obs & R) & L & _). destruct (head_conversion (RM := RM) ops obs w R) as (t & T & C & _).
  - eapply Forall_impl; [|exact L]. intros o Ho. destruct o; auto; lia.
  - exists t. split; [exact T|]. split; [exact C|]. exact (TR_head false E M RM ops w t S T).
Qed.
Lemma all_ready lo hi (conv : astack E level -> res (raz_tree E M)) (g : list (atom E level) -> list (atom E level)) ws ls :
  (forall w l, ready lo hi w l -> exists t : raz_tree E M, conv w = Ok t /\ contents t = g l /\ tree_reached false t) ->
  Forall2 (ready lo hi) ws ls ->
  exists ts, Forall2 (fun w t => conv w = Ok t) ws ts /\ map contents ts = map g ls /\ Forall (fun t => tree_reached false t) ts.
Proof.
  intros H. induction 1 as [|w l ws ls R F (ts & A & B & C)]; [exists []; repeat constructor|].
  destruct (H w l R) as (t & T & Ct & Re). exists (t :: ts). cbn [map]. split; [now constructor|]. split; [congruence|now constructor].
Qed.
Lemma makes (conv : astack E level -> res (raz_tree E M)) ws ts : Forall2 (fun w t => conv w = Ok t) ws ts -> Forall (fun w => exists t, conv w = Ok t) ws.
Proof. induction 1; constructor; eauto. Qed.
Lemma Forall2_stacks lo hi ws ls : Forall2 (ready lo hi) ws ls -> Forall2 (@stack_of E) ws ls.
Proof. induction 1; constructor; eauto using ready_of. Qed.

Definition made_by (conv : astack E level -> res (raz_tree E M)) h ws : Prop :=
  Forall2 (fun e w => forall t, conv w = Ok t -> tree_reads (within path (c_after e)) (c_result e) t) h ws.
Lemma tail_made h tab ws : q <> path -> cran (v_from_at_tail eqE eqD) h tab -> Forall2 (fun e w => stack_reads (within q (c_before e)) (c_given e) w) h ws ->
  Forall (fun w => exists t : raz_tree E M, from_at_tail w = Ok t) ws -> orderly_points (map as_abs ws) -> cundisturbed path h ->
  made_by from_at_tail h ws.
Proof.
  intros D R F2 Fw Or Un.
  assert (X : Forall2 (fun e w => forall rt : raz_tree E M, MemoFrom.from tail_below tail_chk tail_lf tail_mkb w = Ok rt ->
    rtrep (within path (c_after e)) (c_result e) rt) h ws).
  { apply (results eqE eqD q N.leb N.ltb (fun v => v) false D
      (qof_names tail_below tail_chk tail_lf tail_mkb tsz tb_trans tc_below tl_size tm_size) h tab R ws F2); auto.
    change (Forall (fun w => exists t : raz_tree E M, MemoFrom.from tail_below tail_chk tail_lf tail_mkb w = Ok t) ws).
    eapply Forall_impl; [|exact Fw]. intros x (t & H). exists t. now rewrite <- from_tail_eq. }
  eapply Forall2_weaken; [|exact X]. intros e w H t T. apply tree_reads_rep, H. now rewrite <- from_tail_eq.
Qed.
Lemma head_made h tab ws : q <> path -> cran (v_from_at_head eqE eqD) h tab -> Forall2 (fun e w => stack_reads (within q (c_before e)) (c_given e) w) h ws ->
  Forall (fun w => exists t : raz_tree E M, from_at_head w = Ok t) ws -> orderly_points (map as_abs ws) -> cundisturbed path h ->
  made_by from_at_head h ws.
Proof.
  intros D R F2 Fw Or Un.
  assert (X : Forall2 (fun e w => forall rt : raz_tree E M, MemoFrom.from head_below head_chk head_lf head_mkb w = Ok rt ->
    rtrep (within path (c_after e)) (c_result e) rt) h ws).
  { apply (results eqE eqD q N.ltb N.leb (@rev E) true D
      (qof_names head_below head_chk head_lf head_mkb tsz hb_trans hc_below hl_size hm_size) h tab R ws F2); auto.
    change (Forall (fun w => exists t : raz_tree E M, MemoFrom.from head_below head_chk head_lf head_mkb w = Ok t) ws).
    eapply Forall_impl; [|exact Fw]. intros x (t & H). exists t. now rewrite <- from_head_eq. }
  eapply Forall2_weaken; [|exact X]. intros e w H t T. apply tree_reads_rep, H. now rewrite <- from_head_eq.
Qed.

(** ** Computations on the trees made *)
Definition trees_of (h : list event) : list (store elem rdata * sraz_tree E M) := map (fun e => (c_after e, c_result e)) h.
Lemma all_ok_conv {Y} (conv : astack E level -> res (raz_tree E M)) (pure : raz_tree E M -> res Y) ws ts : Forall2 (fun w t => conv w = Ok t) ws ts ->
  all_ok (map pure ts) = all_ok (map (fun w => do t <- conv w; pure t) ws).
Proof. induction 1 as [|w t ws ts H F IH]; [reflexivity|]. cbn [map all_ok]. now rewrite H, IH. Qed.
Lemma made_reads conv h ws ts : made_by conv h ws -> Forall2 (fun w t => conv w = Ok t) ws ts ->
  Forall2 (fun c t => tree_reads (within path (fst c)) (snd c) t) (rev (trees_of h)) (rev ts).
Proof.
  intros Mb F. apply Forall2_rev. revert ts F. induction Mb as [|e w h ws H Mb IH]; intros ts F; inversion F; subst; [constructor|].
  cbn [trees_of map]. constructor; [cbn [fst snd]; auto|now apply IH].
Qed.
Lemma reads_anywhere (xs : list (store elem rdata * sraz_tree E M)) ts :
  Forall2 (fun c t => tree_reads (within path (fst c)) (snd c) t) xs ts -> Forall2 (fun c t => tree_reads (fst c) (snd c) t) xs ts.
Proof.
  intros F. eapply Forall2_weaken; [|exact F]. intros c t. exact (tree_reads_below _ _ _ _ (within_below _ _)).
Qed.

Section Fold.
Context (conv : astack E level -> res (raz_tree E M)) (w w' : astack E level) (older : list (astack E level)) (e : event) (hist : list event)
  (t t' : raz_tree E M) (ts : list (raz_tree E M)) (pre mid mid' post : list (atom E level)).
Hypothesis mb : made_by conv (e :: hist) (w' :: w :: older).
Hypothesis cv : Forall2 (fun w t => conv w = Ok t) (w' :: w :: older) (t' :: t :: ts).
Hypothesis re : Forall (fun t => tree_reached false t) (t' :: t :: ts).
Hypothesis op : orderly_points (map contents (t' :: t :: ts)).
Hypothesis ct : contents t = pre ++ mid ++ post.
Hypothesis ct' : contents t' = pre ++ mid' ++ post.

Lemma up_pipe (p : list name) {R} (init : list E -> res R) (bin : R -> level -> option name -> R -> res R) :
  ev (fun k =>
    answer (inc_runs (i_rt_fold_up_gauged (Nsp := p) eqD k init bin) (rev (trees_of (e :: hist))) no_entries) =
      all_ok (map (fun w => do t <- conv w; rt_fold_up_gauged t init bin) (rev (w' :: w :: older))) /\
    forall rs tab lgs, inc_runs (i_rt_fold_up_gauged (Nsp := p) eqD k init bin) (rev (trees_of (e :: hist))) no_entries = Ok (rs, tab, lgs) ->
      length (last lgs []) <= 1 + 2 * (seen_from_right pre + length (marks mid') + seen_from_left 0%N post)).
Proof using mb cv re op ct ct'.
  pose proof (made_reads _ _ _ _ mb cv) as Rd. apply ev_and.
  - rewrite <- (all_ok_conv conv (fun t => rt_fold_up_gauged t init bin) _ _ (Forall2_rev _ _ _ cv)).
    exact (rt_runs eqD _ _ _ (rt_up_tracks eqD (up_gauged_node init bin)) p _ _ (reads_anywhere _ _ Rd)).
  - refine (rt_last_run path _ _ _ _ (rt_up_sim eqD path (up_gauged_node init bin)) _ _ (rev (t :: ts)) t' Rd _).
    intros. eapply up_cost; eassumption.
Qed.
Lemma lr_pipe (p : list name) {R} (eqR : forall x y : R, {x = y} + {x <> y}) (init : R) (bin : R -> E -> R) (meta : R -> level * option name -> R) :
  ev (fun k =>
    answer (inc_runs (i_rt_fold_lr_meta (Nsp := p) eqD eqR k bin meta init) (rev (trees_of (e :: hist))) no_entries) =
      all_ok (map (fun w => do t <- conv w; Ok (rt_fold_lr_meta t init bin meta)) (rev (w' :: w :: older))) /\
    forall rs tab lgs, inc_runs (i_rt_fold_lr_meta (Nsp := p) eqD eqR k bin meta init) (rev (trees_of (e :: hist))) no_entries = Ok (rs, tab, lgs) ->
      length (last lgs []) <= 1 + 2 * (seen_from_right pre + length (marks mid') + length (marks post))).
Proof using mb cv re op ct ct'.
  pose proof (made_reads _ _ _ _ mb cv) as Rd. apply ev_and.
  - rewrite <- (all_ok_conv conv (fun t => Ok (rt_fold_lr_meta t init bin meta)) _ _ (Forall2_rev _ _ _ cv)).
    exact (rt_runs eqD _ _ _ (rt_lr_tracks eqD eqR (lr_node bin meta) init) p _ _ (reads_anywhere _ _ Rd)).
  - refine (rt_last_run path _ _ _ _ (rt_lr_sim eqD path eqR (lr_node bin meta) init) _ _ (rev (t :: ts)) t' Rd _).
    intros rs tab lgs x tab' lg H1 H2.
    refine (lr_cost eqD t t' ts pre mid mid' post re op ct ct' eqR _ (fun a lv nm => meta a (lv, nm)) init _ _ _ _ _ _ _ H1 H2). reflexivity.
Qed.
Lemma map_pipe (p : list name) (f : E -> E) d ds tab : p <> path -> ran (fun k => u_rt_map (Nsp := p) eqD k f) (d :: ds) tab -> undisturbed p (d :: ds) ->
  Forall2 (fun d e => IncMapSpec.before d = c_after e /\ given d = c_result e) (d :: ds) (e :: hist) ->
  length (entered d) <= 1 + 2 * (seen_from_right pre + length (marks mid') + seen_from_left 0%N post).
Proof using mb cv re op ct ct'.
  intros D R U F. refine (proj1 (map_again eqD (Nsp := p) (path) (fun Q => D (eq_sym Q)) f t t' ts pre mid mid' post d ds tab re op ct ct' R U _)).
  assert (F1 : Forall2 (fun d w => forall t, conv w = Ok t -> tree_reads (within (path) (IncMapSpec.before d)) (given d) t) (d :: ds) (w' :: w :: older)).
  { refine (Forall2_trans _ _ _ _ _ _ _ F mb). intros d0 e0 w0 [-> ->] H. exact H. }
  refine (Forall2_trans _ _ _ _ _ _ _ F1 cv). intros d0 w0 t0 H Q. exact (H t0 Q).
Qed.
End Fold.

(** ** Both conversions, then a computation *)
Section Whole.
Context (w w' : astack E level) (older : list (astack E level)) (l l' : list (atom E level)) (ls : list (list (atom E level)))
  (a b c : list (atom E level)) (e : event) (hist : list event) (tab : ctab elem rdata (@vkey E M) (@s_from_result E M)).
Hypothesis apart_q : q <> path.
Hypothesis or : orderly_points (l' :: l :: ls).
Hypothesis la : l = a ++ c.
Hypothesis lb : l' = b ++ c.
Hypothesis un : cundisturbed path (e :: hist).
Hypothesis rd : Forall2 (fun e w => stack_reads (within q (c_before e)) (c_given e) w) (e :: hist) (w' :: w :: older).

Lemma tail_parts : Forall2 (ready 1%N u32_max) (w' :: w :: older) (l' :: l :: ls) -> cran (v_from_at_tail eqE eqD) (e :: hist) tab ->
  exists t t' ts, made_by from_at_tail (e :: hist) (w' :: w :: older) /\
    Forall2 (fun w t => from_at_tail w = Ok t) (w' :: w :: older) (t' :: t :: ts) /\
    Forall (fun t => tree_reached false t) (t' :: t :: ts) /\ orderly_points (map contents (t' :: t :: ts)) /\
    contents t = rev c ++ rev a ++ [] /\ contents t' = rev c ++ rev b ++ [] /\
    length (c_entered e) <= length (marks b) + seen_from_right (rev c).
Proof using apart_q or la lb un rd.
  intros Re R. destruct (all_ready _ _ from_at_tail (@rev _) _ _ ready_tail Re) as (ts & Cv & Ct & Tr).
  inversion Cv as [|? t' ? ts1 C1 Cv1]; subst. inversion Cv1 as [|? t ? ts2 C2 Cv2]; subst.
  pose proof (makes _ _ _ Cv) as Mk. pose proof (Forall2_stacks _ _ _ _ Re) as St. pose proof (stacks_abs _ _ St) as Ab.
  exists t, t', ts2. split; [apply (tail_made _ tab); auto; now rewrite Ab|]. split; [exact Cv|]. split; [exact Tr|].
  split; [rewrite Ct; now apply orderly_rev|]. cbn [map] in Ct. injection Ct as Q1 Q2 _. rewrite !app_nil_r, Q1, Q2, !rev_app_distr.
  split; [reflexivity|]. split; [reflexivity|].
  exact (proj1 (use_tail_again eqE eqD q w w' older _ _ ls a b c e hist tab apart_q St or eq_refl eq_refl Mk R un rd)).
Qed.
Lemma head_parts : Forall2 (ready 1%N (u32_max + 1)%N) (w' :: w :: older) (l' :: l :: ls) -> cran (v_from_at_head eqE eqD) (e :: hist) tab ->
  exists t t' ts, made_by from_at_head (e :: hist) (w' :: w :: older) /\
    Forall2 (fun w t => from_at_head w = Ok t) (w' :: w :: older) (t' :: t :: ts) /\
    Forall (fun t => tree_reached false t) (t' :: t :: ts) /\ orderly_points (map contents (t' :: t :: ts)) /\
    contents t = [] ++ a ++ c /\ contents t' = [] ++ b ++ c /\
    length (c_entered e) <= length (marks b) + seen_from_left 0%N c.
Proof using apart_q or la lb un rd.
  intros Re R. destruct (all_ready _ _ from_at_head (fun l => l) _ _ ready_head Re) as (ts & Cv & Ct & Tr).
  inversion Cv as [|? t' ? ts1 C1 Cv1]; subst. inversion Cv1 as [|? t ? ts2 C2 Cv2]; subst.
  pose proof (makes _ _ _ Cv) as Mk. pose proof (Forall2_stacks _ _ _ _ Re) as St. pose proof (stacks_abs _ _ St) as Ab. rewrite map_id in Ct.
  exists t, t', ts2. split; [apply (head_made _ tab); auto; now rewrite Ab|]. split; [exact Cv|]. split; [exact Tr|].
  split; [now rewrite Ct|]. cbn [map] in Ct. injection Ct as Q1 Q2 _. rewrite Q1, Q2.
  split; [reflexivity|]. split; [reflexivity|].
  exact (proj1 (use_head_again eqE eqD q w w' older _ _ ls a b c e hist tab apart_q St or eq_refl eq_refl Mk R un rd)).
Qed.

Lemma tail_up (p : list name) {R} (init : list E -> res R) (bin : R -> level -> option name -> R -> res R) :
  Forall2 (ready 1%N u32_max) (w' :: w :: older) (l' :: l :: ls) -> cran (v_from_at_tail eqE eqD) (e :: hist) tab ->
  ev (fun k =>
    answer (inc_runs (i_rt_fold_up_gauged (Nsp := p) eqD k init bin) (rev (trees_of (e :: hist))) no_entries) =
      all_ok (map (fun w => do t <- from_at_tail w; rt_fold_up_gauged t init bin) (rev (w' :: w :: older))) /\
    forall rs tab lgs, inc_runs (i_rt_fold_up_gauged (Nsp := p) eqD k init bin) (rev (trees_of (e :: hist))) no_entries = Ok (rs, tab, lgs) ->
      length (c_entered e) + length (last lgs []) <= 1 + 3 * (length (marks b) + seen_from_right (rev c))).
Proof using apart_q or la lb un rd.
  intros Re R0. destruct (tail_parts Re R0) as (t & t' & ts & Mb & Cv & Tr & Op & Ct & Ct' & Le).
  apply (ev_imp _ _ (up_pipe _ _ _ _ _ _ _ _ _ _ _ _ _ Mb Cv Tr Op Ct Ct' p init bin)). intros k [A B]. split; [exact A|].
  intros rs tb lgs H. specialize (B rs tb lgs H). rewrite marks_rev, rev_length in B. cbn [seen_from_left] in B. lia.
Qed.
Lemma tail_lr (p : list name) {R} (eqR : forall x y : R, {x = y} + {x <> y}) (init : R) (bin : R -> E -> R) (meta : R -> level * option name -> R) :
  Forall2 (ready 1%N u32_max) (w' :: w :: older) (l' :: l :: ls) -> cran (v_from_at_tail eqE eqD) (e :: hist) tab ->
  ev (fun k =>
    answer (inc_runs (i_rt_fold_lr_meta (Nsp := p) eqD eqR k bin meta init) (rev (trees_of (e :: hist))) no_entries) =
      all_ok (map (fun w => do t <- from_at_tail w; Ok (rt_fold_lr_meta t init bin meta)) (rev (w' :: w :: older))) /\
    forall rs tab lgs, inc_runs (i_rt_fold_lr_meta (Nsp := p) eqD eqR k bin meta init) (rev (trees_of (e :: hist))) no_entries = Ok (rs, tab, lgs) ->
      length (c_entered e) + length (last lgs []) <= 1 + 3 * (length (marks b) + seen_from_right (rev c))).
Proof using apart_q or la lb un rd.
  intros Re R0. destruct (tail_parts Re R0) as (t & t' & ts & Mb & Cv & Tr & Op & Ct & Ct' & Le).
  apply (ev_imp _ _ (lr_pipe _ _ _ _ _ _ _ _ _ _ _ _ _ Mb Cv Tr Op Ct Ct' p eqR init bin meta)). intros k [A B]. split; [exact A|].
  intros rs tb lgs H. specialize (B rs tb lgs H). rewrite marks_rev, rev_length in B. cbn [marks length] in B. lia.
Qed.
Lemma head_up (p : list name) {R} (init : list E -> res R) (bin : R -> level -> option name -> R -> res R) :
  Forall2 (ready 1%N (u32_max + 1)%N) (w' :: w :: older) (l' :: l :: ls) -> cran (v_from_at_head eqE eqD) (e :: hist) tab ->
  ev (fun k =>
    answer (inc_runs (i_rt_fold_up_gauged (Nsp := p) eqD k init bin) (rev (trees_of (e :: hist))) no_entries) =
      all_ok (map (fun w => do t <- from_at_head w; rt_fold_up_gauged t init bin) (rev (w' :: w :: older))) /\
    forall rs tab lgs, inc_runs (i_rt_fold_up_gauged (Nsp := p) eqD k init bin) (rev (trees_of (e :: hist))) no_entries = Ok (rs, tab, lgs) ->
      length (c_entered e) + length (last lgs []) <= 1 + 3 * (length (marks b) + seen_from_left 0%N c)).
Proof using apart_q or la lb un rd.
  intros Re R0. destruct (head_parts Re R0) as (t & t' & ts & Mb & Cv & Tr & Op & Ct & Ct' & Le).
  apply (ev_imp _ _ (up_pipe _ _ _ _ _ _ _ _ _ _ _ _ _ Mb Cv Tr Op Ct Ct' p init bin)). intros k [A B]. split; [exact A|].
  intros rs tb lgs H. specialize (B rs tb lgs H). cbn [seen_from_right] in B. lia.
Qed.
Lemma tail_map (p : list name) (f : E -> E) d ds tab2 :
  Forall2 (ready 1%N u32_max) (w' :: w :: older) (l' :: l :: ls) -> cran (v_from_at_tail eqE eqD) (e :: hist) tab ->
  p <> path -> ran (fun k => u_rt_map (Nsp := p) eqD k f) (d :: ds) tab2 -> undisturbed p (d :: ds) ->
  Forall2 (fun d e => IncMapSpec.before d = c_after e /\ given d = c_result e) (d :: ds) (e :: hist) ->
  length (c_entered e) + length (entered d) <= 1 + 3 * (length (marks b) + seen_from_right (rev c)).
Proof using apart_q or la lb un rd.
  intros Re R0 Dp R1 U1 F1. destruct (tail_parts Re R0) as (t & t' & ts & Mb & Cv & Tr & Op & Ct & Ct' & Le).
  pose proof (map_pipe _ _ _ _ _ _ _ _ _ _ _ _ _ Mb Cv Tr Op Ct Ct' p f d ds tab2 Dp R1 U1 F1) as B.
  rewrite marks_rev, rev_length in B. cbn [seen_from_left] in B. lia.
Qed.
Lemma head_map (p : list name) (f : E -> E) d ds tab2 :
  Forall2 (ready 1%N (u32_max + 1)%N) (w' :: w :: older) (l' :: l :: ls) -> cran (v_from_at_head eqE eqD) (e :: hist) tab ->
  p <> path -> ran (fun k => u_rt_map (Nsp := p) eqD k f) (d :: ds) tab2 -> undisturbed p (d :: ds) ->
  Forall2 (fun d e => IncMapSpec.before d = c_after e /\ given d = c_result e) (d :: ds) (e :: hist) ->
  length (c_entered e) + length (entered d) <= 1 + 3 * (length (marks b) + seen_from_left 0%N c).
Proof using apart_q or la lb un rd.
  intros Re R0 Dp R1 U1 F1. destruct (head_parts Re R0) as (t & t' & ts & Mb & Cv & Tr & Op & Ct & Ct' & Le).
  pose proof (map_pipe _ _ _ _ _ _ _ _ _ _ _ _ _ Mb Cv Tr Op Ct Ct' p f d ds tab2 Dp R1 U1 F1) as B.
  cbn [seen_from_right] in B. lia.
Qed.
End Whole.
End Pipe.
