(** * The randomised tests succeed for all draws. *)

From Verif Require Import Base BaseFacts Spec SpecRaz StackModel AStackModel StackScripts StackProofs LevelTreeModel TreeCursorModel
  RazMetaModel RazModel RazView RazScripts RazSession RazFocus RazIndex RazReach RazFacts RazMetaFacts RazOps
  LevelGenModel LevelGenProofs SkiplistModel MapScripts SkiplistProofs TreeSpec TreeProofs TestsSpec TestsModel.

#[local] Open Scope N_scope.

Notation word_ok := (fun w => w < 2 ^ 64).

Lemma level_pos w : word_ok w -> 1 <= gen_branch_level w.
Proof. intros H. exact (proj1 (proj1 (gen_level_range w H))). Qed.

Lemma split_count_whole {E} : forall i (l : list (atom E level)),
  fst (split_count i l) ++ snd (split_count i l) = l.
Proof.
  intros i l. revert i. induction l as [|[e|m n] l IH]; intros [|i]; simpl; try reflexivity.
  - specialize (IH i). destruct (split_count i l). simpl in *. now rewrite IH.
  - specialize (IH (S i)). destruct (split_count (S i) l). simpl in *. now rewrite IH.
Qed.

(** ** test_names_many_edits *)
Section Named.
Notation atoms := (list (atom N level)).

Fixpoint named_atoms (i : N) (ws : list N) : atoms :=
  match ws with
  | [] => []
  | w :: ws => Elt i :: Mark (gen_branch_level w) (Some (index_name i)) :: named_atoms (i + 1) ws
  end.
Fixpoint named_ops (i : N) (ws : list N) : list (zop N) :=
  match ws with
  | [] => []
  | w :: ws => OPushL i :: OArchL (gen_branch_level w) (Some (NNum i)) :: named_ops (i + 1) ws
  end.

Lemma named_ops_ok ws : Forall word_ok ws -> forall i, Forall zop_ok (named_ops i ws).
Proof.
  induction 1 as [|w ws H _ IH]; intros i; simpl; constructor; [exact I|]. constructor; [|apply IH].
  exact (level_pos w H).
Qed.

Lemma fill_named_ops ws : forall r i outs z, zrun r (named_ops i ws) = Ok (outs, z) -> fill_named r i ws = z.
Proof.
  induction ws as [|w ws IH]; intros r i outs z; cbn [named_ops fill_named zrun].
  - intros H. now injection H.
  - unfold zstep at 1. destruct (push_left r i) as [n r1]. cbn [bind snd]. unfold zstep at 1. cbn [bind].
    destruct (zrun _ (named_ops (i + 1) ws)) as [[xs z2]|m|] eqn:Z; cbn [bind]; try discriminate.
    intros H. injection H as _ <-. exact (IH _ _ _ _ Z).
Qed.

Lemma named_run ws : forall i l r a b,
  exists outs c, sz_run (SRaz l r a b) (named_ops i ws) = (outs, SRaz (rev (named_atoms i ws) ++ l) r c b).
Proof.
  induction ws as [|w ws IH]; intros i l r a b; simpl.
  - now exists [], a.
  - unfold sz_push_left, sz_archive_left, sp_push. simpl.
    match goal with |- context [sz_run (SRaz ?l _ ?a _) _] => destruct (IH (i + 1) l r a b) as (outs & c & ->) end.
    do 2 eexists. rewrite <- !app_assoc. reflexivity.
Qed.

(** The last archive point faces the end and is dropped. *)
Lemma named_unfocus ws i c : ws <> [] ->
  sz_unfocus (SRaz (rev (named_atoms i ws)) [] c 0) = removelast (named_atoms i ws) /\
  named_atoms i ws <> [].
Proof.
  intros H. split; [|destruct ws; [congruence|discriminate]].
  assert (E : forall ws i, ws <> [] -> exists l m n, named_atoms i ws = l ++ [Mark m n]).
  { clear. induction ws as [|w ws IH]; intros i H; [congruence|]. destruct ws as [|w' ws].
    - exists [Elt i]. simpl. now do 2 eexists.
    - destruct (IH (i + 1)) as (l & m & n & E); [discriminate|]. cbn [named_atoms] in *. rewrite E.
      exists (Elt i :: Mark (gen_branch_level w) (Some (index_name i)) :: l), m, n. reflexivity. }
  destruct (E ws i H) as (l & m & n & ->). rewrite removelast_last, rev_app_distr. unfold sz_unfocus. simpl. apply rev_involutive.
Qed.

Definition name_list (l : atoms) : list (option name) := map snd (marks l).

Lemma collect_names_marks free t : tree_reached free t -> collect_names t = name_list (contents t).
Proof.
  intros H. unfold collect_names, name_list.
  rewrite (fold_lr_meta_atoms _ _ _ t (proj1 (tree_reached_good t H))).
  assert (G : forall l a, fold_left (sp_visit (fun a (_ : N) => a) (fun a (p : level * option name) => a ++ [snd p])) l a
                = a ++ map snd (marks l)).
  { induction l as [|[e|m n] l IH]; intros a; simpl; [now rewrite app_nil_r|apply IH|].
    rewrite IH, <- app_assoc. reflexivity. }
  apply G.
Qed.

Lemma named_count ws : forall i, length (elts (named_atoms i ws)) = length ws.
Proof. induction ws as [|w ws IH]; intros i; simpl; auto. Qed.
Lemma elts_removelast ws : forall i, elts (removelast (named_atoms i ws)) = elts (named_atoms i ws).
Proof.
  induction ws as [|w ws IH]; intros i; [reflexivity|]. specialize (IH (i + 1)). destruct ws as [|w' ws]; [reflexivity|].
  cbn [named_atoms removelast elts] in *. now rewrite IH.
Qed.
Lemma named_names ws : forall i,
  name_list (removelast (named_atoms (N.of_nat i) ws)) =
  map (fun i => Some (index_name (N.of_nat i))) (seq i (length ws - 1)).
Proof.
  induction ws as [|w ws IH]; intros i; [reflexivity|].
  specialize (IH (S i)). replace (N.of_nat (S i)) with (N.of_nat i + 1)%N in IH by lia.
  destruct ws as [|w' ws]; [reflexivity|].
  cbn [named_atoms removelast length] in *. unfold name_list in *. cbn [marks map snd] in *.
  rewrite IH. cbn [Nat.sub]. rewrite Nat.sub_0_r. reflexivity.
Qed.

(** One edit keeps the archive points and adds one element. *)
Lemma one_edit (t : raz_tree N count) i (e : N) (b : bool) : tree_reached false t ->
  n_elts (contents t) < usize_mod -> (i <= length (elts (contents t)))%nat ->
  exists z t', rt_focus t (N.of_nat i) = Ok (Some z) /\
    unfocus (snd (if b then push_left z e else push_right z e)) = Ok t' /\ tree_reached false t' /\
    length (elts (contents t')) = S (length (elts (contents t))) /\ marks (contents t') = marks (contents t).
Proof.
  intros H Small Le. destruct (reached_focus_count false t i H Small Le) as (z & F & Se & _).
  assert (Ok1 : Forall zop_ok [if b then OPushL e else OPushR e]) by (repeat constructor; now destruct b).
  destruct (Se _ Ok1) as (z' & t' & Z & U & C).
  exists z, t'. split; [exact F|].
  assert (Z' : z' = snd (if b then push_left z e else push_right z e)).
  { destruct b; cbn [zrun zstep] in Z; [destruct (push_left z e)|destruct (push_right z e)];
      cbn [bind] in Z; now injection Z. }
  split; [now rewrite <- Z'|]. split.
  { eapply TR_unfocus; [|exact U]. eapply zrun_reached; [exact Ok1| |exact Z].
    eapply RR_focus; [exact H|apply lawful_count|exact F]. }
  assert (W := split_count_whole i (contents t)).
  unfold sz_focus_count, sz_at in C. destruct (split_count i (contents t)) as [p q]. cbn [fst snd] in W.
  assert (C' : contents t' = p ++ Elt e :: q).
  { rewrite C. destruct b; simpl; unfold sz_unfocus; simpl.
    - now rewrite rev_involutive, <- app_assoc.
    - destruct (rev p) as [|[x|m n] l] eqn:R; rewrite <- (rev_involutive p), R; reflexivity. }
  rewrite C', <- W, !elts_app, !marks_app, !app_length. simpl. split; [lia|reflexivity].
Qed.

Lemma edit_named_spec n : (0 < n)%nat -> forall ds (t : raz_tree N count) i, tree_reached false t ->
  (n <= length (elts (contents t)))%nat ->
  n_elts (contents t) + N.of_nat (length ds) < usize_mod ->
  exists t', edit_named (N.of_nat n) t i ds = Ok t' /\ tree_reached false t' /\ marks (contents t') = marks (contents t).
Proof.
  intros Pos ds. induction ds as [|[w b] ds IH]; intros t i H Le Small; cbn [edit_named].
  - now exists t.
  - unfold usize_rem. destruct (N.of_nat n =? 0) eqn:Z; [apply N.eqb_eq in Z; lia|]. cbn [bind].
    assert (Lt : w mod N.of_nat n < N.of_nat n) by (apply N.mod_lt; lia).
    cbn [length] in Small.
    destruct (one_edit t (N.to_nat (w mod N.of_nat n)) i b H) as (z & t' & F & U & H' & L & Mk); [lia|lia|].
    rewrite N2Nat.id in F.
    rewrite F. cbn [bind unwrap]. rewrite U. cbn [bind].
    destruct (IH t' (i + 1) H') as (t2 & E & H2 & M2).
    + lia.
    + unfold n_elts in *. lia.
    + exists t2. split; [exact E|]. split; [exact H2|congruence].
Qed.

Lemma names_test words draws : words <> [] -> Forall word_ok words ->
  N.of_nat (length words + length draws) < usize_mod ->
  test_names_many_edits words draws = Ok (named_list (length words - 1)).
Proof.
  intros NE F Small. unfold test_names_many_edits.
  destruct (new_session (E := N) (M := count) (named_ops 0 words) (named_ops_ok words F 0)) as (z & t & Z & U & C).
  rewrite (fill_named_ops _ _ _ _ _ Z), U. cbn [bind].
  assert (H : tree_reached false t).
  { eapply TR_unfocus; [|exact U]. eapply zrun_reached; [exact (named_ops_ok words F 0)|apply RR_new|exact Z]. }
  destruct (named_run words 0 [] [] 0%nat 0%nat) as (outs & c & R).
  unfold sz_new in C. rewrite R in C. cbn [snd] in C. rewrite app_nil_r in C.
  rewrite (proj1 (named_unfocus words 0 c NE)) in C.
  assert (Len : length (elts (contents t)) = length words)
    by (rewrite C, elts_removelast; apply named_count).
  assert (Pos : (0 < length words)%nat) by (destruct words; [congruence|simpl; lia]).
  destruct (edit_named_spec (length words) Pos draws t 0 H) as (t' & E & H' & Mk).
  - lia.
  - unfold n_elts. lia.
  - rewrite E. cbn [bind]. rewrite (collect_names_marks false t H), (collect_names_marks false t' H').
    unfold name_list. rewrite Mk. destruct (list_eq_dec _ _ _) as [_|X]; [|congruence]. cbn [assert bind].
    fold (name_list (contents t)). rewrite C. f_equal. exact (named_names words 0).
Qed.
End Named.

(** ** test_name_indexes *)
Section Indexed.
Notation atoms := (list (atom N level)).
Variable gauge : N.
Variable word : N -> N.
Hypothesis Gauge : 0 < gauge.
Hypothesis Words : forall i, word_ok (word i).

Fixpoint indexed_atoms (i : N) (todo : nat) : atoms :=
  match todo with
  | O => []
  | S k =>
      Elt i :: (if i mod gauge =? 0 then [Mark (gen_branch_level (word i)) (Some (index_name i))] else [])
        ++ indexed_atoms (i + 1) k
  end.
Fixpoint indexed_ops (i : N) (todo : nat) : list (zop N) :=
  match todo with
  | O => []
  | S k =>
      OPushL i :: (if i mod gauge =? 0 then [OArchL (gen_branch_level (word i)) (Some (NNum i))] else [])
        ++ indexed_ops (i + 1) k
  end.

Lemma indexed_ops_ok k : forall i, Forall zop_ok (indexed_ops i k).
Proof.
  induction k as [|k IH]; intros i; simpl; constructor; [exact I|]. destruct (i mod gauge =? 0); simpl; auto.
  constructor; [|apply IH]. exact (level_pos _ (Words i)).
Qed.

Lemma fill_indexed_ops k : forall r i outs z, zrun r (indexed_ops i k) = Ok (outs, z) ->
  fill_indexed gauge word r i k = Ok z.
Proof.
  induction k as [|k IH]; intros r i outs z; cbn [indexed_ops fill_indexed zrun].
  - intros H. injection H as _ <-. reflexivity.
  - unfold usize_rem. destruct (gauge =? 0) eqn:G; [apply N.eqb_eq in G; lia|].
    unfold zstep at 1. destruct (push_left r i) as [n r1]. cbn [bind snd].
    destruct (i mod gauge =? 0); cbn [app zrun].
    + unfold zstep at 1. cbn [bind].
      destruct (zrun _ (indexed_ops (i + 1) k)) as [[xs z2]|m|] eqn:Z; cbn [bind]; try discriminate.
      intros H. injection H as _ <-. exact (IH _ _ _ _ Z).
    + destruct (zrun _ (indexed_ops (i + 1) k)) as [[xs z2]|m|] eqn:Z; cbn [bind]; try discriminate.
      intros H. injection H as _ <-. exact (IH _ _ _ _ Z).
Qed.

Lemma indexed_run k : forall i l r a b,
  exists outs c, sz_run (SRaz l r a b) (indexed_ops i k) = (outs, SRaz (rev (indexed_atoms i k) ++ l) r c b).
Proof.
  induction k as [|k IH]; intros i l r a b; simpl.
  - now exists [], a.
  - unfold sz_push_left, sp_push. simpl. destruct (i mod gauge =? 0); simpl.
    + unfold sz_archive_left. simpl.
      match goal with |- context [sz_run (SRaz ?l _ ?a _) _] => destruct (IH (i + 1) l r a b) as (outs & c & ->) end.
      do 2 eexists. rewrite <- !app_assoc. reflexivity.
    + match goal with |- context [sz_run (SRaz ?l _ ?a _) _] => destruct (IH (i + 1) l r a b) as (outs & c & ->) end.
      do 2 eexists. rewrite <- !app_assoc. reflexivity.
Qed.

Lemma indexed_app d : forall i e, indexed_atoms i (d + e) = indexed_atoms i d ++ indexed_atoms (i + N.of_nat d) e.
Proof.
  induction d as [|d IH]; intros i e.
  - cbn [Nat.add indexed_atoms app N.of_nat]. now rewrite N.add_0_r.
  - cbn [Nat.add indexed_atoms]. rewrite IH. cbn [app]. rewrite <- app_assoc.
    replace (i + 1 + N.of_nat d) with (i + N.of_nat (S d)) by lia. reflexivity.
Qed.

Lemma indexed_names k : forall i n, In n (point_names (indexed_atoms i k)) ->
  exists j, n = index_name j /\ i <= j < i + N.of_nat k.
Proof.
  induction k as [|k IH]; intros i n; [intros []|].
  cbn [indexed_atoms]. intros H. change (In n (point_names ((if i mod gauge =? 0 then [Mark (gen_branch_level (word i)) (Some (index_name i))] else []) ++ indexed_atoms (i + 1) k))) in H.
  rewrite point_names_app in H. apply in_app_iff in H. destruct H as [H|H].
  - destruct (i mod gauge =? 0); [|destruct H]. destruct H as [H|[]]. exists i. split; [now rewrite H|lia].
  - destruct (IH _ _ H) as (j & E & B). exists j. split; [exact E|lia].
Qed.

(** Where the archive point of a multiple is. *)
Lemma indexed_split k v : v < N.of_nat k -> v mod gauge = 0 ->
  exists a b, indexed_atoms 0 k =
      (a ++ [Elt v]) ++ Mark (gen_branch_level (word v)) (Some (index_name v)) :: b /\
    ~ In (index_name v) (point_names (a ++ [Elt v])) /\ ~ In (index_name v) (point_names b).
Proof.
  intros H M. exists (indexed_atoms 0 (N.to_nat v)), (indexed_atoms (v + 1) (k - S (N.to_nat v))).
  replace k with (N.to_nat v + S (k - S (N.to_nat v)))%nat at 1 by lia.
  rewrite indexed_app, N.add_0_l, N2Nat.id. cbn [indexed_atoms]. rewrite M. cbn [N.eqb app].
  rewrite <- app_assoc. split; [reflexivity|]. rewrite point_names_app. split; intros X.
  - apply in_app_iff in X. destruct X as [X|[]]. destruct (indexed_names _ _ _ X) as (j & E & B).
    injection E as ->. lia.
  - destruct (indexed_names _ _ _ X) as (j & E & B). injection E as ->. lia.
Qed.

Lemma unique_split (x y x' y' : atoms) l l' n :
  x ++ Mark l (Some n) :: y = x' ++ Mark l' (Some n) :: y' ->
  ~ In n (point_names x') -> ~ In n (point_names y') -> x = x'.
Proof.
  intros E X Y. apply app_eq_app in E. destruct E as (d & [[-> E]|[-> E]]).
  - destruct d as [|c d]; [apply app_nil_r|]. exfalso. injection E as <- ->. apply Y.
    rewrite point_names_app, point_names_mark. apply in_app_iff. right. left. reflexivity.
  - destruct d as [|c d]; [symmetry; apply app_nil_r|]. exfalso. injection E as <- ->. apply X.
    rewrite point_names_app, point_names_mark. apply in_app_iff. right. left. reflexivity.
Qed.

Lemma find_one points (t : raz_tree N names) w :
  0 < points -> tree_reached false t -> contents t = indexed_atoms 0 (N.to_nat (gauge * points)) ->
  find_indexed gauge points t w = Ok (w mod points * gauge).
Proof.
  intros Pos H C. unfold find_indexed, usize_rem.
  destruct (points =? 0) eqn:Z; [apply N.eqb_eq in Z; lia|]. cbn [bind].
  assert (Lt : w mod points < points) by (apply N.mod_lt; lia).
  set (v := w mod points * gauge).
  destruct (indexed_split (N.to_nat (gauge * points)) v) as (a & b & Sp & Na & Nb).
  { unfold v. rewrite N2Nat.id, N.mul_comm. apply N.mul_lt_mono_pos_l; lia. }
  { unfold v. apply N.mod_mul. lia. }
  rewrite <- C in Sp.
  destruct (reached_focus_name false t (index_name v) H) as (z & p & lev & q & Cp & F & Se).
  { rewrite Sp, point_names_app, point_names_mark, !count_occ_app. cbn [count_occ].
    destruct (name_eq_dec (index_name v) (index_name v)) as [_|X]; [|congruence].
    rewrite (proj1 (count_occ_not_In _ _ _) Na), (proj1 (count_occ_not_In _ _ _) Nb). reflexivity. }
  fold (index_name v). rewrite F. cbn [bind unwrap].
  rewrite Sp in Cp. symmetry in Cp. apply unique_split in Cp; [|exact Na|exact Nb]. subst p.
  destruct (Se [OPeekL] (Forall_cons _ (I : zop_ok (@OPeekL N)) (Forall_nil _))) as (z' & t' & Zr & _).
  cbn [zrun zstep] in Zr. destruct (peek_left z) as [x|m|]; cbn [bind] in Zr; try discriminate.
  injection Zr as Zx _. cbn [bind]. rewrite Zx. unfold sz_at. simpl.
  unfold sz_peek_left, sp_peek. simpl. rewrite rev_app_distr. simpl. now rewrite N.eqb_refl.
Qed.

Lemma index_test points ws : 1 < gauge -> 0 < points ->
  test_name_indexes gauge points word ws = Ok (map (fun w => w mod points * gauge) ws).
Proof.
  intros G Pos. unfold test_name_indexes.
  set (k := N.to_nat (gauge * points)).
  destruct (new_session (E := N) (M := names) (indexed_ops 0 k) (indexed_ops_ok k 0)) as (z & t & Z & U & C).
  rewrite (fill_indexed_ops _ _ _ _ _ Z). cbn [bind]. rewrite U. cbn [bind].
  assert (H : tree_reached false t).
  { eapply TR_unfocus; [|exact U]. eapply zrun_reached; [exact (indexed_ops_ok k 0)|apply RR_new|exact Z]. }
  destruct (indexed_run k 0 [] [] 0%nat 0%nat) as (outs & c & R).
  unfold sz_new in C. rewrite R in C. cbn [snd] in C. rewrite app_nil_r in C.
  assert (C' : contents t = indexed_atoms 0 k).
  { rewrite C. assert (Last : exists l e, indexed_atoms 0 k = l ++ [Elt e]).
    { assert (GP : 0 < gauge * points) by nia.
      replace k with (N.to_nat (gauge * points - 1) + 1)%nat by (unfold k; lia).
      rewrite indexed_app. cbn [indexed_atoms]. rewrite N.add_0_l, N2Nat.id.
      assert (M : (gauge * points - 1) mod gauge = gauge - 1).
      { replace (gauge * points - 1) with (gauge - 1 + (points - 1) * gauge) by nia.
        rewrite N.mod_add by lia. apply N.mod_small. lia. }
      rewrite M. destruct (gauge - 1 =? 0) eqn:Q; [apply N.eqb_eq in Q; lia|]. cbn [app]. eauto. }
    destruct Last as (l & e & ->). rewrite rev_app_distr. unfold sz_unfocus. simpl.
    now rewrite rev_involutive, app_nil_r. }
  clear C. induction ws as [|w ws IH]; cbn [find_all_indexed map]; [reflexivity|].
  rewrite (find_one points t w Pos H C'). cbn [bind]. rewrite IH. reflexivity.
Qed.

(** With an archive point after every element the last one is dropped. *)
Lemma index_test_every points w : gauge = 1 -> 1 < points -> w mod points = points - 1 ->
  test_name_indexes gauge points word [w] = Panic "called `Option::unwrap()` on a `None` value".
Proof.
  intros G Pos W. unfold test_name_indexes.
  set (k := N.to_nat (gauge * points)).
  destruct (new_session (E := N) (M := names) (indexed_ops 0 k) (indexed_ops_ok k 0)) as (z & t & Z & U & C).
  rewrite (fill_indexed_ops _ _ _ _ _ Z). cbn [bind]. rewrite U. cbn [bind].
  assert (H : tree_reached false t).
  { eapply TR_unfocus; [|exact U]. eapply zrun_reached; [exact (indexed_ops_ok k 0)|apply RR_new|exact Z]. }
  destruct (indexed_run k 0 [] [] 0%nat 0%nat) as (outs & c & R).
  unfold sz_new in C. rewrite R in C. cbn [snd] in C. rewrite app_nil_r in C.
  assert (C' : contents t = indexed_atoms 0 (N.to_nat (points - 1)) ++ [Elt (points - 1)]).
  { rewrite C. replace k with (N.to_nat (points - 1) + 1)%nat by (unfold k; lia).
    rewrite indexed_app. cbn [indexed_atoms]. rewrite N.add_0_l, N2Nat.id, G, N.mod_1_r. cbn [N.eqb app].
    rewrite rev_app_distr. unfold sz_unfocus. simpl. now rewrite rev_involutive. }
  cbn [find_all_indexed]. unfold find_indexed, usize_rem.
  destruct (points =? 0) eqn:Q; [apply N.eqb_eq in Q; lia|]. cbn [bind]. rewrite W, G, N.mul_1_r.
  fold (index_name (points - 1)).
  rewrite (focus_name_absent t (index_name (points - 1)) (tree_reached_good t H)).
  - assert (NM : is_nil (marks (contents t)) = false).
    { rewrite C'. replace (N.to_nat (points - 1)) with (1 + (N.to_nat (points - 1) - 1))%nat by lia.
      rewrite indexed_app. cbn [indexed_atoms]. rewrite G, N.mod_1_r. reflexivity. }
    rewrite NM. reflexivity.
  - rewrite C', point_names_app. intros X. apply in_app_iff in X. destruct X as [X|[]].
    destruct (indexed_names _ _ _ X) as (j & E & B). injection E as <-. lia.
  - rewrite C'. intros X. symmetry in X. exact (app_cons_not_nil _ _ _ X).
Qed.
End Indexed.

(** ** skiplist_vs_hashmap *)
Section Skip.
Variable hash : N -> N.
Variable debug : bool.
Variables numkeys gauge : N.
Hypothesis Keys : 0 < numkeys.
Hypothesis Gauge : 0 < gauge.

Fixpoint skip_ops (i : N) (draws : list (N * N * N)) : list (map_op N N) :=
  match draws with
  | [] => []
  | (d1, d2, d3) :: ds =>
      MPut (d1 mod numkeys) (d2 mod numkeys)
        :: (if i mod gauge =? 0 then [MArchive (NNum i)] else [])
        ++ MGet (d3 mod (numkeys * 2)) :: skip_ops (i + 1) ds
  end.

Lemma skip_test_rounds ds : forall seen m h t i,
  (forall k, hm_get m k = last_put numkeys seen k) -> (forall k, bound N.eqb h k = last_put numkeys seen k) ->
  sk_run N.eqb hash debug t (skip_ops i ds) = Ok (map_spec_run N.eqb h (skip_ops i ds)) ->
  skip_rounds hash debug numkeys gauge m t i ds = Ok (skip_answers numkeys seen ds).
Proof.
  induction ds as [|[[d1 d2] d3] ds IH]; intros seen m h t i Hm Hh; cbn [skip_ops skip_rounds]; [reflexivity|].
  unfold usize_rem.
  destruct (numkeys =? 0) eqn:Z1; [apply N.eqb_eq in Z1; lia|].
  destruct (gauge =? 0) eqn:Z2; [apply N.eqb_eq in Z2; lia|].
  destruct (numkeys * 2 =? 0) eqn:Z3; [apply N.eqb_eq in Z3; lia|]. cbn [bind].
  set (seen' := (d1, d2, d3) :: seen).
  assert (Hm' : forall k, hm_get (hm_insert m (d1 mod numkeys) (d2 mod numkeys)) k = last_put numkeys seen' k).
  { intros k. unfold hm_get, hm_insert. cbn [find fst seen' last_put].
    destruct (d1 mod numkeys =? k) eqn:E; [reflexivity|]. rewrite <- Hm. unfold hm_get. f_equal.
    apply N.eqb_neq in E. clear -E. induction m as [|[k0 v0] m IHm]; [reflexivity|]. cbn [filter find fst].
    destruct (k0 =? d1 mod numkeys) eqn:A; cbn [negb].
    - apply N.eqb_eq in A. destruct (k0 =? k) eqn:B; [apply N.eqb_eq in B; congruence|exact IHm].
    - cbn [find fst]. destruct (k0 =? k); [reflexivity|exact IHm]. }
  assert (Hh' : forall k, bound N.eqb ((d1 mod numkeys, Some (d2 mod numkeys)) :: h) k = last_put numkeys seen' k).
  { intros k. cbn [bound seen' last_put]. rewrite N.eqb_sym. destruct (d1 mod numkeys =? k); auto. }
  cbn [sk_run sk_step map_spec_run map_spec_step].
  destruct (sk_put N.eqb hash debug t (d1 mod numkeys) (d2 mod numkeys)) as [t1|x|]; cbn [bind]; try discriminate.
  set (t2 := if i mod gauge =? 0 then sk_archive t1 (NNum i) else t1).
  intros R.
  assert (R2 : (do rs <- sk_run N.eqb hash debug t2 (MGet (d3 mod (numkeys * 2)) :: skip_ops (i + 1) ds); Ok rs) =
    Ok (map_spec_run N.eqb ((d1 mod numkeys, Some (d2 mod numkeys)) :: h) (MGet (d3 mod (numkeys * 2)) :: skip_ops (i + 1) ds))).
  { unfold t2. destruct (i mod gauge =? 0); cbn [app sk_run sk_step map_spec_run map_spec_step bind] in R |- *.
    - destruct (sk_get N.eqb hash debug (sk_archive t1 (NNum i)) (d3 mod (numkeys * 2))); cbn [bind] in R |- *; try discriminate.
      destruct (sk_run N.eqb hash debug (sk_archive t1 (NNum i)) (skip_ops (i + 1) ds)); cbn [bind] in R |- *; try discriminate.
      injection R as R1 R2. now rewrite R1, R2.
    - destruct (sk_get N.eqb hash debug t1 (d3 mod (numkeys * 2))); cbn [bind] in R |- *; try discriminate.
      destruct (sk_run N.eqb hash debug t1 (skip_ops (i + 1) ds)); cbn [bind] in R |- *; try discriminate.
      injection R as R1 R2. now rewrite R1, R2. }
  clear R. clearbody t2. cbn [sk_run sk_step map_spec_run map_spec_step bind] in R2.
  destruct (sk_get N.eqb hash debug t2 (d3 mod (numkeys * 2))) as [x|x|]; cbn [bind] in R2; try discriminate.
  destruct (sk_run N.eqb hash debug t2 (skip_ops (i + 1) ds)) as [xs|y|] eqn:Rs; cbn [bind] in R2; try discriminate.
  injection R2 as Ex Exs. cbn [bind]. rewrite Hm'.
  assert (Ex' : x = last_put numkeys seen' (d3 mod (numkeys * 2))) by (rewrite <- Hh'; exact Ex). rewrite Ex'.
  assert (Eq : opt_eqb (last_put numkeys seen' (d3 mod (numkeys * 2))) (last_put numkeys seen' (d3 mod (numkeys * 2))) = true).
  { destruct (last_put _ _); simpl; [apply N.eqb_refl|reflexivity]. }
  rewrite Eq. cbn [assert bind].
  rewrite (IH seen' _ _ t2 (i + 1) Hm' Hh').
  - reflexivity.
  - rewrite Rs. now rewrite Exs.
Qed.
End Skip.

Lemma skip_test hash debug len numkeys gauge draws :
  (0 < len)%nat -> (debug = true -> (len < 64)%nat) -> 0 < numkeys -> 0 < gauge ->
  test_skiplist_vs_hashmap hash debug len numkeys gauge draws = Ok (skip_answers numkeys [] draws).
Proof.
  intros L D K G. unfold test_skiplist_vs_hashmap.
  apply (skip_test_rounds hash debug numkeys gauge K G draws [] [] []); try reflexivity.
  apply (skiplist_is_map N.eqb hash debug N.eqb_eq len L D).
Qed.
