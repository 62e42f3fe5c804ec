(** * Proofs about the memoised [memo_from]: answers and calls. *)

From Coq Require Import Permutation.
From Verif Require Import Base BaseFacts Spec SpecRaz StackModel AStackModel StackProofs LevelTreeModel
  TreeCursorModel RazMetaModel RazModel TreeSpec RazView RazProofs RazFrom MemoModel MemoSpec MemoProofs MemoTwo
  MemoFromModel.

Section Same.
Context {E M : Type} (eqE : forall x y : E, {x = y} + {x <> y})
  (eqD : forall x y : tree_data E M, {x = y} + {x <> y}).
Lemma head_same_eq (h : head (level * list E)) : forall h', head_same eqE h h' = true <-> h = h'.
Proof.
  revert h. fix IH 1. intros [nm [m v] n] [nm' [m' v'] n']. cbn [head_same].
  rewrite !andb_true_iff, N.eqb_eq.
  assert (X : match n, n' with None, None => true | Some x, Some y => head_same eqE x y | _, _ => false end = true
    <-> n = n').
  { destruct n as [x|], n' as [y|]; split; intros H; try discriminate; auto.
    - f_equal. now apply IH.
    - apply (proj2 (IH x y)). now injection H. }
  rewrite X. destruct (oname_eq_dec nm nm'), (list_eq_dec eqE v v'); split; intros H;
    try (decompose [and] H; congruence). inv H. repeat split; auto.
Qed.
Lemma astack_same_eq (s s' : astack E level) : astack_same eqE s s' = true <-> s = s'.
Proof.
  destruct s as [c a], s' as [c' a']. unfold astack_same. cbn [current archived]. rewrite andb_true_iff.
  assert (X : match a, a' with None, None => true | Some x, Some y => head_same eqE x y | _, _ => false end = true
    <-> a = a').
  { destruct a as [x|], a' as [y|]; split; intros H; try discriminate; auto.
    - f_equal. now apply head_same_eq.
    - inv H. now apply head_same_eq. }
  rewrite X. destruct (list_eq_dec eqE c c'); split; intros H.
  - destruct H. congruence.
  - inv H. auto.
  - destruct H. discriminate.
  - congruence.
Qed.
Lemma from_same_eq (k k' : @from_key E M) : from_same eqE eqD k k' = true <-> k = k'.
Proof.
  destruct k as [[[[s l] n] t] m], k' as [[[[s' l'] n'] t'] m']. unfold from_same.
  rewrite !andb_true_iff, astack_same_eq, tree_same_eq, !N.eqb_eq.
  destruct (oname_eq_dec n n'); split; intros H; try (decompose [and] H; congruence). inv H. repeat split; auto.
Qed.
End Same.

(** Both builders, with the comparison of levels, the assertions, the leaves and the
    branches as parameters. *)
Section Side.
Context {E M : Type} {RM : RazMeta E M} (eqE : forall x y : E, {x = y} + {x <> y})
  (eqD : forall x y : tree_data E M, {x = y} + {x <> y}).
Notation rtree := (tree (tree_data E M)).
Notation key := (@from_key E M).
Notation result := (@from_result E M).
Context (below : level -> level -> bool) (chk : rtree -> level -> level -> res unit)
  (lf : list E -> rtree) (mkb : rtree -> level -> option name -> rtree -> res rtree).

Definition first (k : key) : res (result + key) :=
  let '(s, fl, fn, acc, mx) := k in
  do _ <- chk acc fl mx;
  do ' (o, s') <- as_next_archive s;
  do ' (vec, nl) <- unwrap "stack was unexpectedly empty" o;
  Ok match nl with
     | None => inl (as_new, None, None, lf vec)
     | Some lev => if below lev fl then inr (s', lev, as_name s, lf vec, fl) else inl (s', Some lev, as_name s, lf vec)
     end.
Definition cont (k : key) (r : result) : res (result + key) :=
  let '(s, fl, fn, acc, mx) := k in
  let '(sh, fl2, fn2, small) := r in
  do nt <- mkb small fl fn acc;
  Ok match fl2 with
     | None => inl (as_new, None, None, nt)
     | Some lev => if below lev mx then inr (sh, lev, fn2, nt, mx) else inl (sh, Some lev, fn2, nt)
     end.
Definition k_stack (k : key) : astack E level := fst (fst (fst (fst k))).
Definition k_level (k : key) : level := snd (fst (fst (fst k))).
Definition k_name (k : key) : option name := snd (fst (fst k)).
Definition k_acc (k : key) : rtree := snd (fst k).
Definition k_max (k : key) : level := snd k.
Definition knm (k : key) : option name := fork_left (k_name k).
Definition mk (k : key) : nat := S (archives (k_stack k)).
Definition mr (r : result) : nat := match r with (s, None, _, _) => 0 | (s, Some _, _, _) => S (archives s) end.

(** What [next_archive] leaves. *)
Lemma next_cases (s s' : astack E level) o : as_next_archive s = Ok (o, s') ->
  (o = None /\ s = as_new /\ s' = s) \/
  (o = Some (current s, None) /\ archived s = None /\ current s <> [] /\ s' = as_new) \/
  (exists m v n, o = Some (current s, Some m) /\ archived s = Some (Head (as_name s) (m, v) n) /\ s' = AStack v n).
Proof.
  destruct s as [c [[nm [m v] n]|]]; unfold as_next_archive, as_is_empty; cbn [current archived stack_is_empty].
  - rewrite andb_false_r. cbn [stack_peek stack_pull option_map head_peek head_pull unwrap bind].
    intros H. inv H. right. right. exists m, v, n. auto.
  - rewrite andb_true_r. destruct c; intros H; inv H; [left|right; left]; repeat split; auto. discriminate.
Qed.
Lemma first_cases k x : first k = Ok x ->
  chk (k_acc k) (k_level k) (k_max k) = Ok tt /\
  ((archived (k_stack k) = None /\ current (k_stack k) <> [] /\ x = inl (as_new, None, None, lf (current (k_stack k)))) \/
   exists m v n, archived (k_stack k) = Some (Head (as_name (k_stack k)) (m, v) n) /\
     x = if below m (k_level k)
         then inr (AStack v n, m, as_name (k_stack k), lf (current (k_stack k)), k_level k)
         else inl (AStack v n, Some m, as_name (k_stack k), lf (current (k_stack k)))).
Proof.
  destruct k as [[[[s l] n] t] mx]. unfold first, k_stack, k_level, k_acc, k_max. cbn [fst snd]. intros H.
  apply bind_Ok in H. destruct H as ([] & Hc & H). split; [exact Hc|].
  apply bind_Ok in H. destruct H as ([o s'] & Hn & H). apply next_cases in Hn.
  destruct Hn as [(-> & _)|[(-> & Ar & Ne & ->)|(m & v & n' & -> & Ar & ->)]]; cbn [unwrap bind] in H; inv H.
  - left. auto.
  - right. exists m, v, n'. auto.
Qed.
Lemma archives_cons (s : astack E level) nm m v n : archived s = Some (Head nm (m, v) n) ->
  archives s = S (archives (AStack v n)).
Proof. destruct s as [c a]. cbn [archived]. intros ->. reflexivity. Qed.

Lemma mk_pos k : 0 < mk k.
Proof. unfold mk. lia. Qed.
Lemma first_l k r : first k = Ok (inl r) -> mr r < mk k.
Proof.
  intros H. apply first_cases in H. destruct H as (_ & [(_ & _ & H)|(m & v & n & Ar & H)]).
  - inv H. cbn [mr]. apply mk_pos.
  - unfold mk. rewrite (archives_cons _ _ _ _ _ Ar). destruct (below m (k_level k)); inv H. cbn [mr]. lia.
Qed.
Lemma first_r k k1 : first k = Ok (inr k1) -> mk k1 < mk k.
Proof.
  intros H. apply first_cases in H. destruct H as (_ & [(_ & _ & H)|(m & v & n & Ar & H)]); [discriminate|].
  unfold mk at 2. rewrite (archives_cons _ _ _ _ _ Ar). destruct (below m (k_level k)); inv H. unfold mk, k_stack. cbn [fst]. lia.
Qed.
Lemma cont_cases k r x : cont k r = Ok x -> exists t, mkb (snd r) (k_level k) (k_name k) (k_acc k) = Ok t /\
  x = match r with
      | (sh, Some lev, fn2, _) => if below lev (k_max k) then inr (sh, lev, fn2, t, k_max k) else inl (sh, Some lev, fn2, t)
      | (_, None, _, _) => inl (as_new, None, None, t)
      end.
Proof.
  destruct k as [[[[s l] n] t] mx], r as [[[sh o] fn2] sm]. unfold cont, k_level, k_name, k_acc, k_max. cbn [fst snd].
  intros H. apply bind_Ok in H. destruct H as (nt & Hb & H). exists nt. split; [exact Hb|]. inv H. now destruct o.
Qed.
Lemma cont_l k r r' : cont k r = Ok (inl r') -> mr r' <= mr r.
Proof.
  intros H. apply cont_cases in H. destruct H as (t & _ & H). destruct r as [[[sh [lev|]] fn2] sm].
  - destruct (below lev (k_max k)); inv H. cbn. lia.
  - inv H. cbn. lia.
Qed.
Lemma cont_r k r k2 : cont k r = Ok (inr k2) -> mk k2 <= mr r.
Proof.
  intros H. apply cont_cases in H. destruct H as (t & _ & H). destruct r as [[[sh [lev|]] fn2] sm]; [|discriminate].
  destruct (below lev (k_max k)); inv H. unfold mk, k_stack. cbn. lia.
Qed.

(** ** The whole conversion *)
Definition top_key (s : astack E level) : option key :=
  match archived s with
  | None => None
  | Some (Head nm (m, v) n) => Some (AStack v n, m, nm, lf (current s), u32_max)
  end.
Definition direct (s : astack E level) : res (raz_tree E M) :=
  match current s with [] => mk_raz_tree None | v => mk_raz_tree (Some (lf v)) end.
Definition finish (r : result) : res (raz_tree E M) :=
  let '(s2, l, n, t) := r in
  do _ <- assert "memo_from: l" (match l with None => true | _ => false end);
  do _ <- assert "memo_from: n" (match n with None => true | _ => false end);
  do _ <- assert "memo_from: s" (as_is_empty s2);
  mk_raz_tree (Some t).
Notation pure := (pure first cont mk).
Notation m_two := (m_two (from_same eqE eqD) knm first cont).
Definition from (s : astack E level) : res (raz_tree E M) :=
  match top_key s with None => direct s | Some k => do r <- pure k; finish r end.
Definition m_from (s : astack E level) (tab : mtab key result) : res (raz_tree E M * mtab key result * list key) :=
  match top_key s with
  | None => do t <- direct s; Ok (t, tab, [])
  | Some k =>
      do ' (r, tab', lg) <- memo_opt (from_same eqE eqD) (knm k) k (m_two (S (S (archives s))) k) tab;
      do t <- finish r; Ok (t, tab', lg)
  end.
Lemma top_mk s k : top_key s = Some k -> S (mk k) = S (archives s).
Proof.
  destruct s as [c [[nm [m v] n]|]]; unfold top_key; cbn [archived]; intros H; inv H.
  unfold mk, k_stack. cbn [fst]. now rewrite (archives_cons (AStack c _) nm m v n).
Qed.

Lemma m_from_sound s tab : sound pure tab -> answer (m_from s tab) = from s /\
  forall t tab' lg, m_from s tab = Ok (t, tab', lg) -> sound pure tab'.
Proof.
  intros S. unfold m_from, from. destruct (top_key s) as [k|] eqn:T.
  - apply top_mk in T.
    assert (L : mk k <= Datatypes.S (Datatypes.S (archives s))) by lia.
    destruct (sound_memo_opt (from_same eqE eqD) (fun a b => proj1 (from_same_eq eqE eqD a b)) pure (knm k) k
      (m_two (Datatypes.S (Datatypes.S (archives s))) k)
      (m_two_sound _ (from_same_eq eqE eqD) knm first cont mk mr mk_pos first_l first_r cont_l cont_r _ k L) tab S)
      as (Ha & Hs).
    destruct (memo_opt _ _ _ _ tab) as [[[r tab'] lg]|e|]; cbn [answer bind] in *; rewrite <- Ha; cbn [bind];
      [|split; [reflexivity|discriminate]..].
    destruct (finish r); cbn [bind answer]; (split; [reflexivity|]); intros t' tab2 lg2 H; inv H. eauto.
  - destruct (direct s); cbn [bind answer]; (split; [reflexivity|]); intros t' tab2 lg2 H; inv H. exact S.
Qed.
Lemma m_from_runs ss : answer (runs m_from ss no_memos) = all_ok (map from ss).
Proof. apply (runs_sound _ pure from); [|apply no_memos_sound]. intros s tab. apply m_from_sound. Qed.
End Side.

(** ** The two sides *)
Section Both.
Context {E M : Type} {RM : RazMeta E M} (eqE : forall x y : E, {x = y} + {x <> y})
  (eqD : forall x y : tree_data E M, {x = y} + {x <> y}).
Notation rtree := (tree (tree_data E M)).

Definition tail_below (a b : level) : bool := (a <? b)%N.
Definition tail_chk (acc : rtree) (fl mx : level) : res unit :=
  do _ <- assert "from_stack: accum level" (t_level acc <=? fl)%N;
  assert "from_stack: max level" (fl <? mx)%N.
Definition tail_lf (v : list E) : rtree := leaf_of v.
Definition tail_mkb (small : rtree) fl fn (acc : rtree) : res rtree := bin small fl fn acc.
Definition head_below (a b : level) : bool := (a <=? b)%N.
Definition head_chk (acc : rtree) (fl mx : level) : res unit :=
  do _ <- assert "from_stack: accum level" (t_level acc <? fl)%N;
  assert "from_stack: max level" (fl <=? mx)%N.
Definition head_lf (v : list E) : rtree := leaf_of (rev v).
Definition head_mkb (small : rtree) fl fn (acc : rtree) : res rtree := bin acc fl fn small.
Notation t_first := (first tail_below tail_chk tail_lf).
Notation t_cont := (cont tail_below tail_mkb).
Notation h_first := (first head_below head_chk head_lf).
Notation h_cont := (cont head_below head_mkb).

Lemma tail_two fuel : forall s fl fn acc mx,
  tail_from_stack fuel s fl fn acc mx = two t_first t_cont fuel (s, fl, fn, acc, mx).
Proof.
  induction fuel as [|fuel IH]; intros s fl fn acc mx; [reflexivity|]. cbn [tail_from_stack two].
  unfold first, tail_chk. destruct (t_level acc <=? fl)%N; cbn [assert bind]; [|reflexivity].
  destruct (fl <? mx)%N; cbn [assert bind]; [|reflexivity].
  destruct (as_next_archive s) as [[o s']|e|]; cbn [bind]; [|reflexivity..].
  destruct o as [[v nl]|]; cbn [unwrap bind]; [|reflexivity]. rewrite leaf_none. cbn [bind].
  assert (X : match nl with
      | None => Ok (as_new, None, None, leaf_of v)
      | Some lev => if (lev <? fl)%N then tail_from_stack fuel s' lev (as_name s) (leaf_of v) fl
                    else Ok (s', Some lev, as_name s, leaf_of v)
      end = match match nl with
              | None => inl (as_new, None, None, tail_lf v)
              | Some lev => if tail_below lev fl then inr (s', lev, as_name s, tail_lf v, fl)
                            else inl (s', Some lev, as_name s, tail_lf v)
              end with inl r => Ok r | inr k1 => two t_first t_cont fuel k1 end).
  { destruct nl as [lev|]; [|reflexivity]. unfold tail_below. destruct (lev <? fl)%N; [apply IH|reflexivity]. }
  rewrite X. clear X.
  destruct (match match nl with None => _ | Some lev => _ end with inl r => Ok r | inr k1 => _ end)
    as [[[[sh fl2] fn2] sm]|e|]; cbn [bind]; [|reflexivity..].
  unfold cont, tail_mkb. destruct (bin sm fl fn acc) as [nt|e|]; cbn [bind]; [|reflexivity..].
  destruct fl2 as [lev|]; [|reflexivity]. unfold tail_below. destruct (lev <? mx)%N; [apply IH|reflexivity].
Qed.
Lemma head_two fuel : forall s fl fn acc mx,
  head_from_stack fuel s fl fn acc mx = two h_first h_cont fuel (s, fl, fn, acc, mx).
Proof.
  induction fuel as [|fuel IH]; intros s fl fn acc mx; [reflexivity|]. cbn [head_from_stack two].
  unfold first, head_chk. destruct (t_level acc <? fl)%N; cbn [assert bind]; [|reflexivity].
  destruct (fl <=? mx)%N; cbn [assert bind]; [|reflexivity].
  destruct (as_next_archive s) as [[o s']|e|]; cbn [bind]; [|reflexivity..].
  destruct o as [[v nl]|]; cbn [unwrap bind]; [|reflexivity]. rewrite leaf_none. cbn [bind].
  assert (X : match nl with
      | None => Ok (as_new, None, None, leaf_of (rev v))
      | Some lev => if (lev <=? fl)%N then head_from_stack fuel s' lev (as_name s) (leaf_of (rev v)) fl
                    else Ok (s', Some lev, as_name s, leaf_of (rev v))
      end = match match nl with
              | None => inl (as_new, None, None, head_lf v)
              | Some lev => if head_below lev fl then inr (s', lev, as_name s, head_lf v, fl)
                            else inl (s', Some lev, as_name s, head_lf v)
              end with inl r => Ok r | inr k1 => two h_first h_cont fuel k1 end).
  { destruct nl as [lev|]; [|reflexivity]. unfold head_below. destruct (lev <=? fl)%N; [apply IH|reflexivity]. }
  rewrite X. clear X.
  destruct (match match nl with None => _ | Some lev => _ end with inl r => Ok r | inr k1 => _ end)
    as [[[[sh fl2] fn2] sm]|e|]; cbn [bind]; [|reflexivity..].
  unfold cont, head_mkb. destruct (bin acc fl fn sm) as [nt|e|]; cbn [bind]; [|reflexivity..].
  destruct fl2 as [lev|]; [|reflexivity]. unfold head_below. destruct (lev <=? mx)%N; [apply IH|reflexivity].
Qed.

Lemma m_tail_two fuel : forall s fl fn acc mx tab,
  m_tail_from_stack eqE eqD fuel s fl fn acc mx tab =
  m_two (from_same eqE eqD) knm t_first t_cont fuel (s, fl, fn, acc, mx) tab.
Proof.
  induction fuel as [|fuel IH]; intros s fl fn acc mx tab; [reflexivity|]. cbn [m_tail_from_stack m_two].
  unfold first at 1, tail_chk. destruct (t_level acc <=? fl)%N; cbn [assert bind]; [|reflexivity].
  destruct (fl <? mx)%N; cbn [assert bind]; [|reflexivity].
  destruct (as_next_archive s) as [[o s']|e|]; cbn [bind]; [|reflexivity..].
  destruct o as [[v nl]|]; cbn [unwrap bind]; [|reflexivity]. rewrite leaf_none. cbn [bind].
  assert (W : forall k body body' tab, (forall tab, body tab = body' tab) ->
    from_memo eqE eqD k body tab = memo_opt (from_same eqE eqD) (knm k) k body' tab).
  { intros [[[[s0 l0] n0] t0] m0] body body' tab0 Q. unfold from_memo, knm, k_name. cbn [fst snd].
    unfold memo_opt, memo. destruct (fork_left n0); rewrite Q; reflexivity. }
  match goal with |- bind ?x _ = _ => set (R0 := x) end.
  assert (X : R0 = match match nl with
              | None => inl (as_new, None, None, tail_lf v)
              | Some lev => if tail_below lev fl then inr (s', lev, as_name s, tail_lf v, fl)
                            else inl (s', Some lev, as_name s, tail_lf v)
              end with
              | inl r => Ok (r, tab, [])
              | inr k1 => memo_opt (from_same eqE eqD) (knm k1) k1
                            (m_two (from_same eqE eqD) knm t_first t_cont fuel k1) tab end).
  { subst R0. destruct nl as [lev|]; [|reflexivity]. unfold tail_below.
    destruct (lev <? fl)%N; [|reflexivity]. apply W. intros tab0. apply IH. }
  rewrite X. clear X R0.
  destruct (match match nl with None => _ | Some lev => _ end with inl r => Ok (r, tab, []) | inr k1 => _ end)
    as [[[[[[sh fl2] fn2] sm] tab1] lg1]|e|]; cbn [bind]; [|reflexivity..].
  unfold cont at 1, tail_mkb. destruct (bin sm fl fn acc) as [nt|e|]; cbn [bind]; [|reflexivity..].
  destruct fl2 as [lev|]; [|reflexivity]. unfold tail_below. destruct (lev <? mx)%N; [|reflexivity].
  rewrite (W _ _ (m_two (from_same eqE eqD) knm t_first t_cont fuel (sh, lev, fn2, nt, mx))); [reflexivity|].
  intros tab0. apply IH.
Qed.
Lemma m_head_two fuel : forall s fl fn acc mx tab,
  m_head_from_stack eqE eqD fuel s fl fn acc mx tab =
  m_two (from_same eqE eqD) knm h_first h_cont fuel (s, fl, fn, acc, mx) tab.
Proof.
  induction fuel as [|fuel IH]; intros s fl fn acc mx tab; [reflexivity|]. cbn [m_head_from_stack m_two].
  unfold first at 1, head_chk. destruct (t_level acc <? fl)%N; cbn [assert bind]; [|reflexivity].
  destruct (fl <=? mx)%N; cbn [assert bind]; [|reflexivity].
  destruct (as_next_archive s) as [[o s']|e|]; cbn [bind]; [|reflexivity..].
  destruct o as [[v nl]|]; cbn [unwrap bind]; [|reflexivity]. rewrite leaf_none. cbn [bind].
  assert (W : forall k body body' tab, (forall tab, body tab = body' tab) ->
    from_memo eqE eqD k body tab = memo_opt (from_same eqE eqD) (knm k) k body' tab).
  { intros [[[[s0 l0] n0] t0] m0] body body' tab0 Q. unfold from_memo, knm, k_name. cbn [fst snd].
    unfold memo_opt, memo. destruct (fork_left n0); rewrite Q; reflexivity. }
  match goal with |- bind ?x _ = _ => set (R0 := x) end.
  assert (X : R0 = match match nl with
              | None => inl (as_new, None, None, head_lf v)
              | Some lev => if head_below lev fl then inr (s', lev, as_name s, head_lf v, fl)
                            else inl (s', Some lev, as_name s, head_lf v)
              end with
              | inl r => Ok (r, tab, [])
              | inr k1 => memo_opt (from_same eqE eqD) (knm k1) k1
                            (m_two (from_same eqE eqD) knm h_first h_cont fuel k1) tab end).
  { subst R0. destruct nl as [lev|]; [|reflexivity]. unfold head_below.
    destruct (lev <=? fl)%N; [|reflexivity]. apply W. intros tab0. apply IH. }
  rewrite X. clear X R0.
  destruct (match match nl with None => _ | Some lev => _ end with inl r => Ok (r, tab, []) | inr k1 => _ end)
    as [[[[[[sh fl2] fn2] sm] tab1] lg1]|e|]; cbn [bind]; [|reflexivity..].
  unfold cont at 1, head_mkb. destruct (bin acc fl fn sm) as [nt|e|]; cbn [bind]; [|reflexivity..].
  destruct fl2 as [lev|]; [|reflexivity]. unfold head_below. destruct (lev <=? mx)%N; [|reflexivity].
  rewrite (W _ _ (m_two (from_same eqE eqD) knm h_first h_cont fuel (sh, lev, fn2, nt, mx))); [reflexivity|].
  intros tab0. apply IH.
Qed.

Notation t_from := (from tail_below tail_chk tail_lf tail_mkb).
Notation h_from := (from head_below head_chk head_lf head_mkb).
Notation t_mfrom := (m_from eqE eqD tail_below tail_chk tail_lf tail_mkb).
Notation h_mfrom := (m_from eqE eqD head_below head_chk head_lf head_mkb).

Lemma from_tail_eq (s : astack E level) : from_at_tail s = t_from s.
Proof.
  destruct s as [c [[nm [m v] n]|]]; unfold from_at_tail, from, top_key, direct, as_next_archive, as_is_empty;
    cbn [current archived stack_is_empty].
  - rewrite andb_false_r. cbn [stack_peek stack_pull option_map head_peek head_pull unwrap bind].
    rewrite leaf_none. cbn [bind]. rewrite tail_two, (two_pure _ _ mk mr mk_pos (first_l _ _ _) (first_r _ _ _) (cont_l _ _) (cont_r _ _));
      [reflexivity|]. unfold mk, k_stack. cbn [fst]. rewrite (archives_cons (AStack c _) nm m v n eq_refl). lia.
  - rewrite andb_true_r. destruct c as [|x c]; cbn [bind]; [reflexivity|]. now rewrite leaf_none.
Qed.
Lemma from_head_eq (s : astack E level) : from_at_head s = h_from s.
Proof.
  destruct s as [c [[nm [m v] n]|]]; unfold from_at_head, from, top_key, direct, as_next_archive, as_is_empty;
    cbn [current archived stack_is_empty].
  - rewrite andb_false_r. cbn [stack_peek stack_pull option_map head_peek head_pull unwrap bind].
    rewrite leaf_none. cbn [bind]. rewrite head_two, (two_pure _ _ mk mr mk_pos (first_l _ _ _) (first_r _ _ _) (cont_l _ _) (cont_r _ _));
      [reflexivity|]. unfold mk, k_stack. cbn [fst]. rewrite (archives_cons (AStack c _) nm m v n eq_refl). lia.
  - rewrite andb_true_r. destruct c as [|x c]; cbn [bind]; [reflexivity|]. now rewrite leaf_none.
Qed.
Lemma memo_ext (k : @from_key E M) body body' tab : (forall tab, body tab = body' tab) ->
  from_memo eqE eqD k body tab = memo_opt (from_same eqE eqD) (knm k) k body' tab.
Proof.
  destruct k as [[[[s0 l0] n0] t0] m0]. intros Q. unfold from_memo, knm, k_name. cbn [fst snd].
  unfold memo_opt, memo. destruct (fork_left n0); rewrite Q; reflexivity.
Qed.
Lemma m_from_tail_eq s tab : m_from_at_tail eqE eqD s tab = t_mfrom s tab.
Proof.
  destruct s as [c [[nm [m v] n]|]]; unfold m_from_at_tail, m_from, top_key, direct, as_next_archive, as_is_empty;
    cbn [current archived stack_is_empty].
  - rewrite andb_false_r. cbn [stack_peek stack_pull option_map head_peek head_pull unwrap bind].
    rewrite leaf_none. cbn [bind as_name archived stack_name head_name].
    rewrite (memo_ext _ _ (m_two (from_same eqE eqD) knm t_first t_cont (S (S (archives (AStack c (Some (Head nm (m, v) n))))))
      (AStack v n, m, nm, tail_lf c, u32_max))) by (intros; apply m_tail_two).
    unfold tail_lf. cbn [as_name archived stack_name head_name].
    destruct (memo_opt _ _ _ _ tab) as [[[[[[s2 l] nn] t] tab'] lg]|e|]; cbn [bind]; [|reflexivity..].
    unfold finish, as_is_empty. destruct l; cbn [assert bind]; [reflexivity|]. destruct nn; cbn [assert bind]; [reflexivity|].
    destruct (_ && _); reflexivity.
  - rewrite andb_true_r. destruct c as [|x c]; cbn [bind]; [reflexivity|]. now rewrite leaf_none.
Qed.
Lemma m_from_head_eq s tab : m_from_at_head eqE eqD s tab = h_mfrom s tab.
Proof.
  destruct s as [c [[nm [m v] n]|]]; unfold m_from_at_head, m_from, top_key, direct, as_next_archive, as_is_empty;
    cbn [current archived stack_is_empty].
  - rewrite andb_false_r. cbn [stack_peek stack_pull option_map head_peek head_pull unwrap bind].
    rewrite leaf_none. cbn [bind as_name archived stack_name head_name].
    rewrite (memo_ext _ _ (m_two (from_same eqE eqD) knm h_first h_cont (S (S (archives (AStack c (Some (Head nm (m, v) n))))))
      (AStack v n, m, nm, head_lf c, u32_max))) by (intros; apply m_head_two).
    unfold head_lf. cbn [as_name archived stack_name head_name].
    destruct (memo_opt _ _ _ _ tab) as [[[[[[s2 l] nn] t] tab'] lg]|e|]; cbn [bind]; [|reflexivity..].
    unfold finish, as_is_empty. destruct l; cbn [assert bind]; [reflexivity|]. destruct nn; cbn [assert bind]; [reflexivity|].
    destruct (_ && _); reflexivity.
  - rewrite andb_true_r. destruct c as [|x c]; cbn [bind]; [reflexivity|]. now rewrite leaf_none.
Qed.
Lemma runs_ext {X K R Y L} (f g : X -> mtab K R -> res (Y * mtab K R * list L)) :
  (forall x tab, f x tab = g x tab) -> forall xs tab, runs f xs tab = runs g xs tab.
Proof.
  intros H. induction xs as [|x xs IH]; intros tab; cbn [runs]; [reflexivity|]. rewrite H.
  destruct (g x tab) as [[[y tab1] lg]|e|]; cbn [bind]; [|reflexivity..]. now rewrite IH.
Qed.
Lemma tail_answers ss : answer (runs (m_from_at_tail eqE eqD) ss no_memos) = all_ok (map from_at_tail ss).
Proof. rewrite (runs_ext _ _ m_from_tail_eq), (map_ext _ _ from_tail_eq). apply m_from_runs. Qed.
Lemma head_answers ss : answer (runs (m_from_at_head eqE eqD) ss no_memos) = all_ok (map from_at_head ss).
Proof. rewrite (runs_ext _ _ m_from_head_eq), (map_ext _ _ from_head_eq). apply m_from_runs. Qed.
End Both.
