(** * Proofs about [map] and [memo_from] over the store. *)

From Verif Require Import Base BaseFacts SpecRaz StackModel AStackModel LevelTreeModel TreeCursorModel RazMetaModel RazModel
  RazScripts TreeSpec TreeProofs StoreModel StoreSpec StoreScripts StoreProofs StoreRaz StoreHistory StoreNs
  StoreMapModel StoreMapSpec.

Section Tree.
Context {T A : Type} {Nsp : here}.
Implicit Types (st : store T A) (s : stree A) (t : tree A).

Lemma new_Ok {B} m lv nm (d : B) l r (t : tree B) : unwrap m (tree_new lv nm d l r) = Ok t -> t = Node lv nm d l r.
Proof. destruct nm; simpl; congruence. Qed.

Section Map.
Variable f : A -> level -> option name -> option (tree A) -> option (tree A) -> res A.
Variable sf : A -> level -> option name -> option (stree A) -> option (stree A) -> sm T A A.
Hypothesis agree : forall st d lv nm sl sr l r d', orep st sl l -> orep st sr r -> f d lv nm l r = Ok d' ->
  sf d lv nm sl sr st = Ok (d', st).

Definition put_handle t (s : stree A) : Prop := forall n, t_name t = Some n -> s = TCell (t_level t) (path, n).

Lemma map_sim t : forall t', t_map f t = Ok t' -> uniq (tnames t) ->
  forall k st s, t_size t <= k -> rep st s t ->
  exists s' st', s_map sf k s st = Ok (s', st') /\ rep st' s' t' /\ upto (tnames t) st st' /\
    tnames t' = tnames t /\ put_handle t s'.
Proof.
  induction t as [lv nm d l r IHl IHr] using tree_induction. intros t' H Un k st s K R.
  rewrite tnames_eq in Un |- *. cbn [t_name t_left t_right] in Un |- *.
  apply rep_eq in R. cbn [t_level t_name t_peek t_left t_right] in R. destruct R as (H1 & H2 & sl & sr & Lk & Rl & Rr).
  destruct k as [|k]; [simpl in K; lia|]. cbn [s_map]. rewrite (s_bind_Ok _ _ _ _ _ (force_tree_Ok _ _ _ Lk)).
  cbn [t_map] in H. apply bind_Ok in H. destruct H as (l' & Hl & H). apply bind_Ok in H. destruct H as (r' & Hr & H).
  apply bind_Ok in H. destruct H as (d' & Hd & H). apply new_Ok in H. subst t'.
  assert (El : exists sl' st1, match sl with None => s_ret None | Some t1 => act x <- s_map sf k t1; s_ret (Some x) end st = Ok (sl', st1) /\
    orep st1 sl' l' /\ upto (otnames l) st st1 /\ otnames l' = otnames l).
  { destruct sl as [s1|], l as [t1|]; cbn [orep] in Rl; try contradiction.
    - apply bind_Ok in Hl. destruct Hl as (t1' & Hl & E). injection E as <-. cbn [otnames] in *.
      destruct (IHl _ Hl ltac:(names) k st s1 ltac:(simpl in K; lia) Rl) as (s1' & st1 & X & Y & Z & W & _).
      exists (Some s1'), st1. rewrite (s_bind_Ok _ _ _ _ _ X). auto.
    - injection Hl as <-. exists None, st. split; [reflexivity|]. split; [exact I|]. split; [apply upto_refl|reflexivity]. }
  destruct El as (sl' & st1 & El & Rl' & U1 & N1).
  rewrite (s_bind_Ok _ _ _ _ _ El). clear El.
  assert (Rr1 : orep st1 sr r) by (apply (orep_frame _ _ _ _ _ U1); [names|exact Rr]).
  assert (Er : exists sr' st2, match sr with None => s_ret None | Some t1 => act x <- s_map sf k t1; s_ret (Some x) end st1 = Ok (sr', st2) /\
    orep st2 sr' r' /\ upto (otnames r) st1 st2 /\ otnames r' = otnames r).
  { destruct sr as [s1|], r as [t1|]; cbn [orep] in Rr; try contradiction.
    - apply bind_Ok in Hr. destruct Hr as (t1' & Hr & E). injection E as <-. cbn [otnames] in *.
      destruct (IHr _ Hr ltac:(names) k st1 s1 ltac:(simpl in K; lia) Rr1) as (s1' & st2 & X & Y & Z & W & _).
      exists (Some s1'), st2. rewrite (s_bind_Ok _ _ _ _ _ X). auto.
    - injection Hr as <-. exists None, st1. split; [reflexivity|]. split; [exact I|]. split; [apply upto_refl|reflexivity]. }
  destruct Er as (sr' & st2 & Er & Rr' & U2 & N2). rewrite (s_bind_Ok _ _ _ _ _ Er). clear Er.
  assert (Rl2 : orep st2 sl' l') by (apply (orep_frame _ _ _ _ _ U2); [rewrite N1; names|exact Rl']).
  rewrite H1, H2. rewrite (s_bind_Ok _ _ _ _ _ (agree _ _ _ _ _ _ _ _ _ Rl2 Rr' Hd)).
  destruct (tree_new_rep st2 lv nm d' sl' sr') as (s' & st' & X & U3 & Y1 & Y2 & Lk').
  rewrite (s_bind_Ok _ _ _ _ _ X). exists s', st'. split; [reflexivity|]. split; [|split; [|split]].
  - apply rep_eq. cbn [t_level t_name t_peek t_left t_right]. split; [exact Y1|]. split; [exact Y2|].
    exists sl', sr'. split; [exact Lk'|].
    split; (apply (orep_frame _ _ _ _ _ U3); [rewrite ?N1, ?N2; names|assumption]).
  - apply (upto_trans _ _ st1); [apply (upto_sub (otnames l)); [names|exact U1]|].
    apply (upto_trans _ _ st2); [apply (upto_sub (otnames r)); [names|exact U2]|].
    apply (upto_sub (oroot nm)); [names|exact U3].
  - rewrite tnames_eq. cbn [t_name t_left t_right]. now rewrite N1, N2.
  - intros n Hn. cbn [t_name t_level] in *. subst nm. rewrite Hn in X. cbn in X. now injection X as <- _.
Qed.
End Map.
End Tree.

Section Raz.
Context {E M : Type} {RM : RazMeta E M} {Nsp : here}.
Notation rdata := (tree_data E M).
Notation store := (store (level * list E) rdata).
Implicit Types (st : store) (s : stree rdata).

Definition p_map_node (f : E -> E) (d : rdata) lev n (l r : option (tree rdata)) : res rdata :=
  match d with Leaf v => Ok (Leaf (map f v)) | _ => td_rebuild (peek_op l) Dummy lev n (peek_op r) end.

Lemma map_node_agree f st d lv nm sl sr l r d' : orep st sl l -> orep st sr r -> p_map_node f d lv nm l r = Ok d' ->
  s_map_node f d lv nm sl sr st = Ok (d', st).
Proof.
  intros Hl Hr H. unfold p_map_node in H. unfold s_map_node. destruct d;
    try solve [injection H as <-; reflexivity];
    rewrite (s_bind_Ok _ _ _ _ _ (peek_op_rep _ _ _ Hl)), (s_bind_Ok _ _ _ _ _ (peek_op_rep _ _ _ Hr)), H; reflexivity.
Qed.

Lemma rt_map_sim f (t t' : raz_tree E M) : rt_map f t = Ok t' -> uniq (rtnames t) ->
  ev (fun k => forall st h, rtrep st h t ->
    exists h' st', s_rt_map k f h st = Ok (h', st') /\ rtrep st' h' t' /\ upto (rtnames t) st st' /\ rtnames t' = rtnames t /\
      (forall lv n, srt_tree h = Some (TCell lv (path, n)) -> srt_tree h' = srt_tree h)).
Proof.
  intros H Un. unfold rt_map in H. apply bind_Ok in H. destruct H as (tr & H1 & H2).
  exists (match rt_tree t with None => 0 | Some u => t_size u end). intros k K st h [Hm Hr].
  unfold s_rt_map, rtnames in *. destruct (srt_tree h) as [s|], (rt_tree t) as [u|]; cbn [orep otnames] in *; try contradiction.
  - apply bind_Ok in H1. destruct H1 as (u' & H1 & E1). injection E1 as <-.
    destruct (map_sim (p_map_node f) (s_map_node f) (map_node_agree f) u u' H1 Un k st s K Hr) as (s' & st' & X & Y & Z & W & V).
    rewrite (s_bind_Ok _ _ _ (Some s') st') by (rewrite (s_bind_Ok _ _ _ _ _ X); reflexivity).
    destruct (mk_raz_tree_sim st' (Some s') (Some u') t' Y H2) as (h' & P & Q & R).
    exists h', st'. split; [exact P|]. split; [exact Q|]. split; [exact Z|]. rewrite R. split; [exact W|].
    assert (Eh : srt_tree h' = Some s').
    { unfold s_mk_raz_tree in P. unfold s_bind in P at 1. destruct (s_treetop_meta (Some s') st') as [[m st2]| |]; try discriminate.
      injection P as <- _. reflexivity. }
    intros lv n Hs. injection Hs as ->. rewrite Eh. apply rep_eq in Hr. destruct Hr as (L1 & L2 & _). cbn in L1, L2.
    rewrite (V n (eq_sym L2)). now rewrite L1.
  - injection H1 as <-. destruct (mk_raz_tree_sim st None None t' I H2) as (h' & P & Q & R).
    exists h', st. split; [exact P|]. split; [exact Q|]. split; [apply upto_refl|]. rewrite R. split; [reflexivity|]. discriminate.
Qed.

(** ** memo_from *)
Lemma leaf_sim st v n : exists s, s_leaf v None st = Ok (s, st) /\ (forall t, leaf v n = Ok t -> n = None -> rep st s t /\ tnames t = []).
Proof.
  eexists. split; [reflexivity|]. intros t H ->. unfold leaf in H. simpl in H. injection H as <-. split; [|reflexivity].
  apply rep_eq. cbn. split; [reflexivity|]. split; [reflexivity|]. do 2 eexists. split; [reflexivity|]. split; exact I.
Qed.
Lemma bin_sim st s1 t1 s2 t2 lv nm t : rep st s1 t1 -> rep st s2 t2 -> apart (tnames t1 ++ tnames t2) (oroot nm) ->
  bin t1 lv nm t2 = Ok t ->
  exists s st', s_bin s1 lv nm s2 st = Ok (s, st') /\ rep st' s t /\ upto (oroot nm) st st' /\
    tnames t = oroot nm ++ tnames t1 ++ tnames t2 /\ t_level t = lv.
Proof.
  intros R1 R2 D H. unfold bin in H. apply bind_Ok in H. destruct H as (d & Hd & H). apply new_Ok in H. subst t.
  unfold s_bin. pose proof (proj1 (rep_eq _ _ _) R1) as (_ & _ & a & b & L1 & _).
  pose proof (proj1 (rep_eq _ _ _) R2) as (_ & _ & a' & b' & L2 & _).
  rewrite (s_bind_Ok _ _ _ _ _ (peek_Ok _ _ _ _ _ L1)), (s_bind_Ok _ _ _ _ _ (peek_Ok _ _ _ _ _ L2)).
  rewrite Hd, (s_bind_Ok (s_lift (Ok d)) _ st d st eq_refl).
  destruct (tree_new_rep st lv nm d (Some s1) (Some s2)) as (s & st' & X & U & Y1 & Y2 & Lk).
  rewrite (s_bind_Ok _ _ _ _ _ X). exists s, st'. split; [reflexivity|].
  split; [|split; [exact U|split; reflexivity]].
  apply rep_eq. cbn [t_level t_name t_peek t_left t_right]. split; [exact Y1|]. split; [exact Y2|].
  exists (Some s1), (Some s2). split; [exact Lk|].
  split; cbn [orep]; (apply (rep_frame _ _ _ _ _ U); [names|assumption]).
Qed.

Lemma rep_level st s t : rep st s t -> st_level s = t_level t.
Proof. intros H. apply rep_eq in H. apply H. Qed.

Lemma lift_assert {X} m b st (g : unit -> sm (level * list E) rdata X) : assert m b = Ok tt ->
  s_bind (s_lift (assert m b)) g st = g tt st.
Proof. intros ->. reflexivity. Qed.
Lemma assert_tt m b u : assert m b = Ok u -> assert m b = Ok tt.
Proof. now destruct u. Qed.
Lemma snames_new : snames (@as_new E level) = [].
Proof. reflexivity. Qed.

(** The cell of this namespace under the name holds a tree node. *)
Definition is_node st (m : name) : Prop := exists d l r, st (path, m) = Some (CNode d l r).
Lemma is_node_upto L st st' m : upto L st st' -> cnt m L = 0 -> is_node st m -> is_node st' m.
Proof. intros U Z (d & l & r & H). exists d, l, r. rewrite U; auto. Qed.
Lemma next_last (a : astack E level) vec a1 : as_next_archive a = Ok (Some (vec, None), a1) -> as_name a = None /\ snames a1 = [].
Proof.
  unfold as_next_archive. destruct (as_is_empty a); [discriminate|]. unfold as_name.
  destruct (archived a) as [h|] eqn:A; cbn [stack_is_empty]; [|intros H; injection H as _ <-; auto].
  intros H. apply bind_Ok in H. destruct H as ([m v] & _ & H). apply bind_Ok in H. destruct H as (r & _ & H). discriminate.
Qed.
Lemma next_none (a : astack E level) a1 : as_next_archive a = Ok (None, a1) -> as_name a = None /\ snames a1 = [].
Proof.
  unfold as_next_archive. unfold as_is_empty, as_name, snames. destruct (archived a) as [h|] eqn:A.
  - rewrite Bool.andb_false_r. cbn [stack_is_empty]. intros H. apply bind_Ok in H. destruct H as ([m v] & _ & H).
    apply bind_Ok in H. destruct H as (r & _ & H). discriminate.
  - cbn [stack_is_empty]. rewrite Bool.andb_true_r. destruct (current a); [|discriminate].
    intros H. injection H as <-. rewrite A. auto.
Qed.
Lemma cnt_one n m : 0 < cnt m (oroot (Some n)) -> m = n.
Proof. intros H. apply cnt_In in H. destruct H as [H|[]]. auto. Qed.

Lemma tail_from_sim k0 : forall a lev nm acc mx a' l' n' t',
  tail_from_stack k0 a lev nm acc mx = Ok (a', l', n', t') -> uniq (oroot nm ++ snames a ++ tnames acc) ->
  forall k st sa sacc, k0 <= k -> arep st sa a -> rep st sacc acc ->
  exists x st', s_tail_from_stack k sa lev nm sacc mx st = Ok (x, st') /\
    exists sa' s', x = (sa', l', n', s') /\ arep st' sa' a' /\ rep st' s' t' /\
      upto (oroot nm ++ snames a) st st' /\ sub (oroot n' ++ snames a' ++ tnames t') (oroot nm ++ snames a ++ tnames acc) /\
      (l' = None -> n' = None /\ snames a' = []) /\
      (forall m, 0 < cnt m (oroot nm ++ snames a) -> cnt m (oroot n' ++ snames a') = 0 -> is_node st' m).
Proof.
  induction k0 as [|k0 IH]; intros a lev nm acc mx a' l' n' t' H Un k st sa sacc K Ra Rt; [discriminate|].
  destruct k as [|k]; [lia|]. cbn [tail_from_stack] in H. cbn [s_tail_from_stack].
  apply bind_Ok in H. destruct H as (u1 & H1 & H). apply bind_Ok in H. destruct H as (u2 & H2 & H).
  apply bind_Ok in H. destruct H as ([o a1] & H3 & H). apply bind_Ok in H. destruct H as ([vec nl] & H4 & H).
  apply bind_Ok in H. destruct H as (lt & H5 & H). apply bind_Ok in H. destruct H as ([[[sh fl] fn] sm] & H6 & H).
  apply bind_Ok in H. destruct H as (nt & H7 & H).
  rewrite (rep_level _ _ _ Rt). rewrite (lift_assert _ _ _ _ (assert_tt _ _ _ H1)), (lift_assert _ _ _ _ (assert_tt _ _ _ H2)).
  rewrite (sa_name_sim _ _ _ Ra).
  destruct (sa_next_archive_sim _ _ _ _ _ Ra H3) as (sa1 & X3 & Ra1 & N3). rewrite (s_bind_Ok _ _ _ _ _ X3).
  destruct o as [[vec' nl']|]; [|discriminate]. cbn [unwrap] in H4. injection H4 as -> ->.
  cbn [unwrap]. rewrite (s_bind_Ok (s_lift (Ok (vec, nl))) _ st (vec, nl) st eq_refl).
  destruct (leaf_sim st vec None) as (sl & X5 & R5). rewrite (s_bind_Ok _ _ _ _ _ X5).
  destruct (R5 _ H5 eq_refl) as [Rl Nl].
  assert (N3' : snames a = oroot (as_name a) ++ snames a1) by exact N3. rewrite N3' in Un |- *. clear N3.
  assert (S6 : exists x6 st1, match nl with
      | None => s_ret (sa_new, None, None, sl)
      | Some lev0 => if (lev0 <? lev)%N then s_tail_from_stack k sa1 lev0 (as_name a) sl lev
                     else s_ret (sa1, Some lev0, as_name a, sl)
      end st = Ok (x6, st1) /\
    exists ssh ssm, x6 = (ssh, fl, fn, ssm) /\ arep st1 ssh sh /\ rep st1 ssm sm /\
      upto (oroot (as_name a) ++ snames a1) st st1 /\ sub (oroot fn ++ snames sh ++ tnames sm) (oroot (as_name a) ++ snames a1) /\
      (fl = None -> fn = None /\ snames sh = []) /\
      (forall m, 0 < cnt m (oroot (as_name a) ++ snames a1) -> cnt m (oroot fn ++ snames sh) = 0 -> is_node st1 m)).
  { destruct nl as [lev0|].
    - destruct (lev0 <? lev)%N.
      + destruct (IH _ _ _ _ _ _ _ _ _ H6 ltac:(rewrite Nl; names) k st sa1 sl ltac:(lia) Ra1 Rl)
          as (x & st1 & X & sa' & s' & Ex & Y1 & Y2 & Y3 & Y4 & Y5 & Y6).
        exists x, st1. split; [exact X|]. exists sa', s'. rewrite Nl in Y4. repeat (split; [assumption|]). split; [names|auto].
      + injection H6 as <- <- <- <-. do 2 eexists. split; [reflexivity|]. exists sa1, sl. split; [reflexivity|].
        split; [exact Ra1|]. split; [exact Rl|]. split; [apply upto_refl|]. rewrite Nl. split; [names|].
        split; [discriminate|]. intros m A B. lia.
    - injection H6 as <- <- <- <-. do 2 eexists. split; [reflexivity|]. exists sa_new, sl. split; [reflexivity|].
      split; [apply new_rep|]. split; [exact Rl|]. split; [apply upto_refl|]. rewrite Nl, snames_new. cbn [oroot]. split; [names|].
      split; [auto|]. destruct (next_last _ _ _ H3) as [-> ->]. intros m A B. simpl in A. lia. }
  destruct S6 as (x6 & st1 & X6 & ssh & ssm & -> & Rsh & Rsm & U6 & S6 & S7 & S8). rewrite (s_bind_Ok _ _ _ _ _ X6). clear X6.
  assert (Rt1 : rep st1 sacc acc) by (apply (rep_frame _ _ _ _ _ U6); [names|exact Rt]).
  destruct (bin_sim st1 ssm sm sacc acc lev nm nt Rsm Rt1 ltac:(names) H7) as (sn & st2 & X7 & Rn & U7 & Nn & Ln).
  rewrite (s_bind_Ok _ _ _ _ _ X7).
  assert (Rsh2 : arep st2 ssh sh) by (apply (arep_frame _ _ _ _ _ U7); [fold (snames sh); names|exact Rsh]).
  assert (U2 : upto (oroot nm ++ oroot (as_name a) ++ snames a1) st st2).
  { apply (upto_trans _ _ st1); [apply (upto_sub (oroot (as_name a) ++ snames a1)); [names|exact U6]|apply (upto_sub (oroot nm)); [names|exact U7]]. }
  assert (Hnm : forall n, nm = Some n -> is_node st2 n).
  { intros n ->. apply rep_eq in Rn. destruct Rn as (_ & Rn & a0 & b0 & Lk & _). revert X7. clear - Lk.
    unfold s_bin, s_bind. destruct (st_peek _ st1) as [[d1 st3]| |]; try discriminate.
    destruct (st_peek _ st3) as [[d2 st4]| |]; try discriminate.
    destruct (td_rebuild _ _ _ _ _) as [d| |]; try discriminate. cbn. intros X. injection X as <- <-.
    unfold is_node. rewrite write_same. eauto. }
  assert (Nd2 : forall m, 0 < cnt m (oroot nm ++ oroot (as_name a) ++ snames a1) -> cnt m (oroot fn ++ snames sh) = 0 -> is_node st2 m).
  { intros m A B. destruct (Nat.eq_dec (cnt m (oroot nm)) 0) as [C|C].
    - apply (is_node_upto _ _ _ _ U7 C), S8; [|exact B]. rewrite cnt_app in A. lia.
    - destruct nm as [n|]; [|now contradiction C]. rewrite (cnt_one n m) by lia. now apply Hnm. }
  destruct fl as [lv|].
  - destruct (lv <? mx)%N.
    + destruct (IH _ _ _ _ _ _ _ _ _ H ltac:(rewrite Nn; names) k st2 ssh sn ltac:(lia) Rsh2 Rn)
        as (x & st3 & X & sa' & s' & Ex & Y1 & Y2 & Y3 & Y4 & Y5 & Y6).
      exists x, st3. split; [exact X|]. exists sa', s'. rewrite Nn in Y4. repeat (split; [assumption|]).
      split; [|split; [names|split; [exact Y5|]]].
      * apply (upto_trans _ _ st2); [exact U2|]. apply (upto_sub (oroot fn ++ snames sh)); [names|exact Y3].
      * intros m A B. destruct (Nat.eq_dec (cnt m (oroot fn ++ snames sh)) 0) as [C|C]; [|apply Y6; lia].
        apply (is_node_upto _ _ _ _ Y3 C). now apply Nd2.
    + injection H as <- <- <- <-. do 2 eexists. split; [reflexivity|]. exists ssh, sn. split; [reflexivity|].
      split; [exact Rsh2|]. split; [exact Rn|]. split; [exact U2|]. rewrite Nn. split; [names|].
      split; [discriminate|exact Nd2].
  - injection H as <- <- <- <-. do 2 eexists. split; [reflexivity|]. exists sa_new, sn. split; [reflexivity|].
    split; [apply new_rep|]. split; [exact Rn|]. split; [exact U2|]. rewrite Nn, snames_new. cbn [oroot]. split; [names|].
    split; [auto|]. intros m A _. apply Nd2; [exact A|]. destruct (S7 eq_refl) as [-> ->]. reflexivity.
Qed.
Lemma head_from_sim k0 : forall a lev nm acc mx a' l' n' t',
  head_from_stack k0 a lev nm acc mx = Ok (a', l', n', t') -> uniq (oroot nm ++ snames a ++ tnames acc) ->
  forall k st sa sacc, k0 <= k -> arep st sa a -> rep st sacc acc ->
  exists x st', s_head_from_stack k sa lev nm sacc mx st = Ok (x, st') /\
    exists sa' s', x = (sa', l', n', s') /\ arep st' sa' a' /\ rep st' s' t' /\
      upto (oroot nm ++ snames a) st st' /\ sub (oroot n' ++ snames a' ++ tnames t') (oroot nm ++ snames a ++ tnames acc) /\
      (l' = None -> n' = None /\ snames a' = []) /\
      (forall m, 0 < cnt m (oroot nm ++ snames a) -> cnt m (oroot n' ++ snames a') = 0 -> is_node st' m).
Proof.
  induction k0 as [|k0 IH]; intros a lev nm acc mx a' l' n' t' H Un k st sa sacc K Ra Rt; [discriminate|].
  destruct k as [|k]; [lia|]. cbn [head_from_stack] in H. cbn [s_head_from_stack].
  apply bind_Ok in H. destruct H as (u1 & H1 & H). apply bind_Ok in H. destruct H as (u2 & H2 & H).
  apply bind_Ok in H. destruct H as ([o a1] & H3 & H). apply bind_Ok in H. destruct H as ([vec nl] & H4 & H).
  apply bind_Ok in H. destruct H as (lt & H5 & H). apply bind_Ok in H. destruct H as ([[[sh fl] fn] sm] & H6 & H).
  apply bind_Ok in H. destruct H as (nt & H7 & H).
  rewrite (rep_level _ _ _ Rt). rewrite (lift_assert _ _ _ _ (assert_tt _ _ _ H1)), (lift_assert _ _ _ _ (assert_tt _ _ _ H2)).
  rewrite (sa_name_sim _ _ _ Ra).
  destruct (sa_next_archive_sim _ _ _ _ _ Ra H3) as (sa1 & X3 & Ra1 & N3). rewrite (s_bind_Ok _ _ _ _ _ X3).
  destruct o as [[vec' nl']|]; [|discriminate]. cbn [unwrap] in H4. injection H4 as -> ->.
  cbn [unwrap]. rewrite (s_bind_Ok (s_lift (Ok (vec, nl))) _ st (vec, nl) st eq_refl).
  destruct (leaf_sim st (rev vec) None) as (sl & X5 & R5). rewrite (s_bind_Ok _ _ _ _ _ X5).
  destruct (R5 _ H5 eq_refl) as [Rl Nl].
  assert (N3' : snames a = oroot (as_name a) ++ snames a1) by exact N3. rewrite N3' in Un |- *. clear N3.
  assert (S6 : exists x6 st1, match nl with
      | None => s_ret (sa_new, None, None, sl)
      | Some lev0 => if (lev0 <=? lev)%N then s_head_from_stack k sa1 lev0 (as_name a) sl lev
                     else s_ret (sa1, Some lev0, as_name a, sl)
      end st = Ok (x6, st1) /\
    exists ssh ssm, x6 = (ssh, fl, fn, ssm) /\ arep st1 ssh sh /\ rep st1 ssm sm /\
      upto (oroot (as_name a) ++ snames a1) st st1 /\ sub (oroot fn ++ snames sh ++ tnames sm) (oroot (as_name a) ++ snames a1) /\
      (fl = None -> fn = None /\ snames sh = []) /\
      (forall m, 0 < cnt m (oroot (as_name a) ++ snames a1) -> cnt m (oroot fn ++ snames sh) = 0 -> is_node st1 m)).
  { destruct nl as [lev0|].
    - destruct (lev0 <=? lev)%N.
      + destruct (IH _ _ _ _ _ _ _ _ _ H6 ltac:(rewrite Nl; names) k st sa1 sl ltac:(lia) Ra1 Rl)
          as (x & st1 & X & sa' & s' & Ex & Y1 & Y2 & Y3 & Y4 & Y5 & Y6).
        exists x, st1. split; [exact X|]. exists sa', s'. rewrite Nl in Y4. repeat (split; [assumption|]). split; [names|auto].
      + injection H6 as <- <- <- <-. do 2 eexists. split; [reflexivity|]. exists sa1, sl. split; [reflexivity|].
        split; [exact Ra1|]. split; [exact Rl|]. split; [apply upto_refl|]. rewrite Nl. split; [names|].
        split; [discriminate|]. intros m A B. lia.
    - injection H6 as <- <- <- <-. do 2 eexists. split; [reflexivity|]. exists sa_new, sl. split; [reflexivity|].
      split; [apply new_rep|]. split; [exact Rl|]. split; [apply upto_refl|]. rewrite Nl, snames_new. cbn [oroot]. split; [names|].
      split; [auto|]. destruct (next_last _ _ _ H3) as [-> ->]. intros m A B. simpl in A. lia. }
  destruct S6 as (x6 & st1 & X6 & ssh & ssm & -> & Rsh & Rsm & U6 & S6 & S7 & S8). rewrite (s_bind_Ok _ _ _ _ _ X6). clear X6.
  assert (Rt1 : rep st1 sacc acc) by (apply (rep_frame _ _ _ _ _ U6); [names|exact Rt]).
  destruct (bin_sim st1 sacc acc ssm sm lev nm nt Rt1 Rsm ltac:(names) H7) as (sn & st2 & X7 & Rn & U7 & Nn & Ln).
  rewrite (s_bind_Ok _ _ _ _ _ X7).
  assert (Rsh2 : arep st2 ssh sh) by (apply (arep_frame _ _ _ _ _ U7); [fold (snames sh); names|exact Rsh]).
  assert (U2 : upto (oroot nm ++ oroot (as_name a) ++ snames a1) st st2).
  { apply (upto_trans _ _ st1); [apply (upto_sub (oroot (as_name a) ++ snames a1)); [names|exact U6]|apply (upto_sub (oroot nm)); [names|exact U7]]. }
  assert (Hnm : forall n, nm = Some n -> is_node st2 n).
  { intros n ->. apply rep_eq in Rn. destruct Rn as (_ & Rn & a0 & b0 & Lk & _). revert X7. clear - Lk.
    unfold s_bin, s_bind. destruct (st_peek _ st1) as [[d1 st3]| |]; try discriminate.
    destruct (st_peek _ st3) as [[d2 st4]| |]; try discriminate.
    destruct (td_rebuild _ _ _ _ _) as [d| |]; try discriminate. cbn. intros X. injection X as <- <-.
    unfold is_node. rewrite write_same. eauto. }
  assert (Nd2 : forall m, 0 < cnt m (oroot nm ++ oroot (as_name a) ++ snames a1) -> cnt m (oroot fn ++ snames sh) = 0 -> is_node st2 m).
  { intros m A B. destruct (Nat.eq_dec (cnt m (oroot nm)) 0) as [C|C].
    - apply (is_node_upto _ _ _ _ U7 C), S8; [|exact B]. rewrite cnt_app in A. lia.
    - destruct nm as [n|]; [|now contradiction C]. rewrite (cnt_one n m) by lia. now apply Hnm. }
  destruct fl as [lv|].
  - destruct (lv <=? mx)%N.
    + destruct (IH _ _ _ _ _ _ _ _ _ H ltac:(rewrite Nn; names) k st2 ssh sn ltac:(lia) Rsh2 Rn)
        as (x & st3 & X & sa' & s' & Ex & Y1 & Y2 & Y3 & Y4 & Y5 & Y6).
      exists x, st3. split; [exact X|]. exists sa', s'. rewrite Nn in Y4. repeat (split; [assumption|]).
      split; [|split; [names|split; [exact Y5|]]].
      * apply (upto_trans _ _ st2); [exact U2|]. apply (upto_sub (oroot fn ++ snames sh)); [names|exact Y3].
      * intros m A B. destruct (Nat.eq_dec (cnt m (oroot fn ++ snames sh)) 0) as [C|C]; [|apply Y6; lia].
        apply (is_node_upto _ _ _ _ Y3 C). now apply Nd2.
    + injection H as <- <- <- <-. do 2 eexists. split; [reflexivity|]. exists ssh, sn. split; [reflexivity|].
      split; [exact Rsh2|]. split; [exact Rn|]. split; [exact U2|]. rewrite Nn. split; [names|].
      split; [discriminate|exact Nd2].
  - injection H as <- <- <- <-. do 2 eexists. split; [reflexivity|]. exists sa_new, sn. split; [reflexivity|].
    split; [apply new_rep|]. split; [exact Rn|]. split; [exact U2|]. rewrite Nn, snames_new. cbn [oroot]. split; [names|].
    split; [auto|]. intros m A _. apply Nd2; [exact A|]. destruct (S7 eq_refl) as [-> ->]. reflexivity.
Qed.

Lemma from_tail_sim (a : astack E level) (t : raz_tree E M) : from_at_tail a = Ok t -> uniq (snames a) ->
  ev (fun k => forall st sa, arep st sa a ->
    exists h st', s_from_at_tail k sa st = Ok (h, st') /\ rtrep st' h t /\ upto (snames a) st st' /\ (forall m, 0 < cnt m (snames a) -> is_node st' m)).
Proof.
  intros H Un. exists (S (S (archives a))). intros k K st sa Ra. unfold from_at_tail in H. unfold s_from_at_tail.
  apply bind_Ok in H. destruct H as ([o a1] & H1 & H).
  destruct (sa_next_archive_sim _ _ _ _ _ Ra H1) as (sa1 & X1 & Ra1 & N1).
  assert (N1' : snames a = oroot (as_name a) ++ snames a1) by exact N1. clear N1.
  rewrite (s_bind_Ok _ _ _ _ _ X1). rewrite (sa_name_sim _ _ _ Ra).
  destruct o as [[vec [lev|]]|].
  - apply bind_Ok in H. destruct H as (ft & H2 & H). apply bind_Ok in H. destruct H as ([[[s2 l] n] u] & H3 & H).
    apply bind_Ok in H. destruct H as (u1 & H4 & H). apply bind_Ok in H. destruct H as (u2 & H5 & H).
    apply bind_Ok in H. destruct H as (u3 & H6 & H).
    destruct (leaf_sim st vec None) as (sl & X2 & R2). rewrite (s_bind_Ok _ _ _ _ _ X2).
    destruct (R2 _ H2 eq_refl) as [Rl Nl].
    destruct (tail_from_sim _ _ _ _ _ _ _ _ _ _ H3 ltac:(rewrite Nl; rewrite N1' in Un; names) k st sa1 sl K Ra1 Rl)
      as (x & st1 & X3 & sa' & s' & -> & Y1 & Y2 & Y3 & Y4 & Y5 & Y6).
    rewrite (s_bind_Ok _ _ _ _ _ X3).
    rewrite (lift_assert _ _ _ _ (assert_tt _ _ _ H4)), (lift_assert _ _ _ _ (assert_tt _ _ _ H5)).
    rewrite (sa_empty_sim _ _ _ Y1), (lift_assert _ _ _ _ (assert_tt _ _ _ H6)).
    destruct (mk_raz_tree_sim st1 (Some s') (Some u) t Y2 H) as (h & P & Q & _).
    exists h, st1. split; [exact P|]. split; [exact Q|]. rewrite N1'. split; [exact Y3|].
    intros m A. apply Y6; [exact A|]. destruct l; [discriminate|]. destruct (Y5 eq_refl) as [-> ->]. reflexivity.
  - apply bind_Ok in H. destruct H as (ft & H2 & H).
    destruct (leaf_sim st vec None) as (sl & X2 & R2). rewrite (s_bind_Ok _ _ _ _ _ X2).
    destruct (R2 _ H2 eq_refl) as [Rl Nl].
    destruct (mk_raz_tree_sim st (Some sl) (Some ft) t Rl H) as (h & P & Q & _).
    exists h, st. split; [exact P|]. split; [exact Q|]. split; [apply upto_refl|]. rewrite N1'. destruct (next_last _ _ _ H1) as [-> ->].
    intros m A. simpl in A. lia.
  - destruct (mk_raz_tree_sim st None None t I H) as (h & P & Q & _).
    exists h, st. split; [exact P|]. split; [exact Q|]. split; [apply upto_refl|]. rewrite N1'. destruct (next_none _ _ H1) as [-> ->].
    intros m A. simpl in A. lia.
Qed.

Lemma from_head_sim (a : astack E level) (t : raz_tree E M) : from_at_head a = Ok t -> uniq (snames a) ->
  ev (fun k => forall st sa, arep st sa a ->
    exists h st', s_from_at_head k sa st = Ok (h, st') /\ rtrep st' h t /\ upto (snames a) st st' /\ (forall m, 0 < cnt m (snames a) -> is_node st' m)).
Proof.
  intros H Un. exists (S (S (archives a))). intros k K st sa Ra. unfold from_at_head in H. unfold s_from_at_head.
  apply bind_Ok in H. destruct H as ([o a1] & H1 & H).
  destruct (sa_next_archive_sim _ _ _ _ _ Ra H1) as (sa1 & X1 & Ra1 & N1).
  assert (N1' : snames a = oroot (as_name a) ++ snames a1) by exact N1. clear N1.
  rewrite (s_bind_Ok _ _ _ _ _ X1). rewrite (sa_name_sim _ _ _ Ra).
  destruct o as [[vec [lev|]]|].
  - apply bind_Ok in H. destruct H as (ft & H2 & H). apply bind_Ok in H. destruct H as ([[[s2 l] n] u] & H3 & H).
    apply bind_Ok in H. destruct H as (u1 & H4 & H). apply bind_Ok in H. destruct H as (u2 & H5 & H).
    apply bind_Ok in H. destruct H as (u3 & H6 & H).
    destruct (leaf_sim st (rev vec) None) as (sl & X2 & R2). rewrite (s_bind_Ok _ _ _ _ _ X2).
    destruct (R2 _ H2 eq_refl) as [Rl Nl].
    destruct (head_from_sim _ _ _ _ _ _ _ _ _ _ H3 ltac:(rewrite Nl; rewrite N1' in Un; names) k st sa1 sl K Ra1 Rl)
      as (x & st1 & X3 & sa' & s' & -> & Y1 & Y2 & Y3 & Y4 & Y5 & Y6).
    rewrite (s_bind_Ok _ _ _ _ _ X3).
    rewrite (lift_assert _ _ _ _ (assert_tt _ _ _ H4)), (lift_assert _ _ _ _ (assert_tt _ _ _ H5)).
    rewrite (sa_empty_sim _ _ _ Y1), (lift_assert _ _ _ _ (assert_tt _ _ _ H6)).
    destruct (mk_raz_tree_sim st1 (Some s') (Some u) t Y2 H) as (h & P & Q & _).
    exists h, st1. split; [exact P|]. split; [exact Q|]. rewrite N1'. split; [exact Y3|].
    intros m A. apply Y6; [exact A|]. destruct l; [discriminate|]. destruct (Y5 eq_refl) as [-> ->]. reflexivity.
  - apply bind_Ok in H. destruct H as (ft & H2 & H).
    destruct (leaf_sim st (rev vec) None) as (sl & X2 & R2). rewrite (s_bind_Ok _ _ _ _ _ X2).
    destruct (R2 _ H2 eq_refl) as [Rl Nl].
    destruct (mk_raz_tree_sim st (Some sl) (Some ft) t Rl H) as (h & P & Q & _).
    exists h, st. split; [exact P|]. split; [exact Q|]. split; [apply upto_refl|]. rewrite N1'. destruct (next_last _ _ _ H1) as [-> ->].
    intros m A. simpl in A. lia.
  - destruct (mk_raz_tree_sim st None None t I H) as (h & P & Q & _).
    exists h, st. split; [exact P|]. split; [exact Q|]. split; [apply upto_refl|]. rewrite N1'. destruct (next_none _ _ H1) as [-> ->].
    intros m A. simpl in A. lia.
Qed.
End Raz.

(** ** Reading a stack *)
Section Read.
Context {E A : Type}.
Notation store := (store (level * list E) A).
Implicit Types (st : store) (a : astack E level).

Lemma heads_rep k : forall st so o, heads_read k so st = Ok o -> ohrep st so o.
Proof.
  induction k as [|k IH]; intros st so o H; [discriminate|]. cbn [heads_read] in H.
  destruct so as [h|]; [|injection H as <-; exact I].
  unfold s_force_head in H. destruct (head_look st h) as [[e nx]|] eqn:Lk; [|discriminate]. cbn [unwrap s_lift bind] in H.
  apply bind_Ok in H. destruct H as (r & H1 & H). injection H as <-. cbn [ohrep]. apply hrep_eq.
  cbn [head_name head_peek head_pull]. split; [now destruct h|]. exists nx. split; [exact Lk|]. now apply IH.
Qed.
Lemma rep_heads (h : head (level * list E)) : exists k, forall st s, hrep st s h -> heads_read k (Some s) st = Ok (Some h).
Proof.
  induction h as [nm e|nm e h [k IH]] using head_induction.
  - exists 2. intros st s H. apply hrep_eq in H. destruct H as (Hn & sn & Lk & Hr). cbn [head_name head_peek head_pull] in *.
    destruct sn; [contradiction|]. cbn [heads_read]. unfold s_force_head. rewrite Lk. cbn [unwrap s_lift bind].
    unfold sh_name in Hn. now rewrite Hn.
  - exists (S k). intros st s H. apply hrep_eq in H. destruct H as (Hn & sn & Lk & Hr). cbn [head_name head_peek head_pull] in *.
    destruct sn as [s1|]; [|contradiction]. cbn [heads_read]. unfold s_force_head. rewrite Lk. cbn [unwrap s_lift bind].
    rewrite (IH st s1 Hr). cbn [bind]. unfold sh_name in Hn. now rewrite Hn.
Qed.
Lemma stack_reads_rep st s a : stack_reads st s a <-> arep st s a.
Proof.
  split; intros [Hc H]; (split; [exact Hc|]).
  - destruct H as [k H]. exact (heads_rep k _ _ _ H).
  - destruct (archived a) as [h|], (sa_archived s) as [s1|]; cbn [ohrep] in H; try contradiction.
    + destruct (rep_heads h) as [k K]. exists k. now apply K.
    + exists 1. reflexivity.
Qed.
Lemma stack_names_cnt a n : cnt n (stack_names a) = cnt n (snames a).
Proof.
  unfold stack_names, snames, ohnames. destruct (archived a) as [h|]; [|reflexivity].
  induction h as [nm e|nm e h IH] using head_induction; cbn [point_names flat_map hnames]; rewrite !cnt_app.
  - destruct nm; reflexivity.
  - rewrite IH. destruct nm; reflexivity.
Qed.

(** A stack none of whose cells is in the namespace reads as before after writing there;
    one with a cell that now is a node does not read at all. *)
Lemma split_reads {Nsp : here} st st' (h : head (level * list E)) : forall s, hrep st s h ->
  (forall b, fst b <> path -> st' b = st b) ->
  (forall m, 0 < cnt m (hnames h) -> exists d l r, st' (path, m) = Some (CNode d l r)) ->
  hrep (without path st) s h \/ forall h', ~ hrep st' s h'.
Proof.
  assert (G : forall s nm e (nx : option (head (level * list E))) sn, sh_name s = nm -> head_look st s = Some (e, sn) ->
    (forall b, fst b <> path -> st' b = st b) ->
    (forall m, 0 < cnt m (oroot nm) -> exists d l r, st' (path, m) = Some (CNode d l r)) ->
    (head_look (without path st) s = Some (e, sn) /\ head_look st' s = Some (e, sn)) \/ forall h', ~ hrep st' s h').
  { intros s nm e nx sn Hn Lk F N. destruct s as [e0 n0|[q m]]; [left; auto|]. simpl in Hn. subst nm.
    unfold head_look in Lk |- *. unfold without. cbn [fst]. destruct (list_eq_dec name_eq_dec q path) as [->|D].
    - right. intros h' H. apply hrep_eq in H. destruct H as (_ & s1 & L1 & _). cbn [head_look] in L1.
      destruct (N m) as (d & l & r & X); [cbn; unfold cnt; simpl; destruct (name_eq_dec m m); [lia|congruence]|].
      rewrite X in L1. discriminate.
    - left. rewrite F by exact D. auto. }
  induction h as [nm e|nm e h IH] using head_induction; intros s H F N; apply hrep_eq in H;
    destruct H as (Hn & sn & Lk & Hr); cbn [head_name head_peek head_pull hnames] in *.
  - destruct (G s nm e None sn Hn Lk F) as [[X Y]|X]; [|left|right; exact X].
    { intros m Hm. apply N. rewrite cnt_app. lia. }
    apply hrep_eq. cbn [head_name head_peek head_pull]. split; [exact Hn|]. exists sn. split; [exact X|].
    destruct sn; [contradiction|exact I].
  - destruct (G s nm e None sn Hn Lk F) as [[X Y]|X]; [| |right; exact X].
    { intros m Hm. apply N. rewrite cnt_app. lia. }
    destruct sn as [s1|]; [|contradiction]. cbn [ohrep] in Hr.
    destruct (IH s1 Hr F) as [Z|Z].
    { intros m Hm. apply N. rewrite cnt_app. lia. }
    + left. apply hrep_eq. cbn [head_name head_peek head_pull]. split; [exact Hn|]. exists (Some s1). split; [exact X|exact Z].
    + right. intros h' H'. apply hrep_eq in H'. destruct H' as (_ & s2 & L2 & R2). rewrite Y in L2. injection L2 as _ <-.
      destruct (head_pull h') as [h2|]; [|contradiction]. exact (Z h2 R2).
Qed.
Lemma ohrep_below st st' so (o : option (head (level * list E))) : below st st' -> ohrep st so o -> ohrep st' so o.
Proof.
  intros B. destruct so as [s|], o as [h|]; cbn [ohrep]; auto. revert s.
  induction h as [nm e|nm e h IH] using head_induction; intros s H; apply hrep_eq in H; destruct H as (Hn & sn & Lk & Hr);
    apply hrep_eq; (split; [exact Hn|]); exists sn; cbn [head_name head_peek head_pull] in *;
    (split; [destruct s as [|b]; simpl in *; [exact Lk|]; destruct (st b) as [c|] eqn:Sb; [|discriminate]; now rewrite (B _ _ Sb)|]).
  - exact Hr.
  - destruct sn as [s1|]; [now apply IH|contradiction].
Qed.
Lemma stack_reads_below st st' s a : below st st' -> stack_reads st s a -> stack_reads st' s a.
Proof. rewrite !stack_reads_rep. intros B [H1 H2]. split; [exact H1|]. now apply (ohrep_below st). Qed.
End Read.

(** ** The facts used for the properties *)
Section Facts.
Context {E M : Type} {RM : RazMeta E M} {Nsp : here}.
Notation rdata := (tree_data E M).
Notation store := (store (level * list E) rdata).
Implicit Types (st : store).

Lemma tree_reads_rep st (h : sraz_tree E M) t : tree_reads st h t <-> rtrep st h t.
Proof.
  split; intros [Hm H]; (split; [exact Hm|]); destruct (srt_tree h), (rt_tree t); simpl in *; auto.
  - destruct H as [k H]. exact (proj2 (read_rep k _ _ _ _ H)).
  - eexists. apply rep_read; [exact H|apply le_n].
Qed.
Lemma names_uniq (t : raz_tree E M) : NoDup (node_names t) -> uniq (rtnames t).
Proof.
  intros H. apply uniq_NoDup in H. intros n. specialize (H n). revert H. unfold node_names, rtnames.
  destruct (rt_tree t) as [u|]; [|auto]. cbn [oinorder otnames]. now rewrite names_cnt.
Qed.
Lemma names_upto (t : raz_tree E M) st st' : upto (rtnames t) st st' ->
  forall b, fst b <> path \/ ~ In (snd b) (node_names t) -> st' b = st b.
Proof.
  intros U b [D|D]; apply U; [now left|right]. apply cnt_zero in D. revert D. unfold node_names, rtnames.
  destruct (rt_tree t) as [u|]; [|auto]. cbn [oinorder otnames]. now rewrite names_cnt.
Qed.

Theorem map_agrees (f : E -> E) (t t' : raz_tree E M) : rt_map f t = Ok t' -> NoDup (node_names t) ->
  exists k0, forall k st h, k0 <= k -> tree_reads st h t ->
  exists h' st', s_rt_map k f h st = Ok (h', st') /\ tree_reads st' h' t' /\
    (forall b, fst b <> path \/ ~ In (snd b) (node_names t) -> st' b = st b) /\
    (tree_reads (without path st) h t -> tree_reads st' h t) /\
    (forall lv n, srt_tree h = Some (TCell lv (path, n)) -> srt_tree h' = srt_tree h).
Proof.
  intros H Nd. destruct (rt_map_sim f t t' H (names_uniq _ Nd)) as [k0 K]. exists k0. intros k st h Hk R.
  destruct (K k Hk st h (proj1 (tree_reads_rep _ _ _) R)) as (h' & st' & X & Y & U & N & V).
  exists h', st'. split; [exact X|]. split; [now apply tree_reads_rep|]. split; [now apply names_upto|]. split; [|exact V].
  intros W. apply (tree_reads_below (without path st)); [|exact W].
  intros b c. unfold without. destruct (list_eq_dec name_eq_dec (fst b) path) as [e|D]; [discriminate|].
  intros Hb. rewrite U by auto. exact Hb.
Qed.

Definition from_agrees (from : astack E level -> res (raz_tree E M))
    (s_from : nat -> sastack E level -> sm (level * list E) rdata (sraz_tree E M)) : Prop :=
  forall a t, from a = Ok t -> NoDup (stack_names a) ->
  exists k0, forall k st s, k0 <= k -> stack_reads st s a ->
  exists h st', s_from k s st = Ok (h, st') /\ tree_reads st' h t /\
    (forall b, fst b <> path \/ ~ In (snd b) (stack_names a) -> st' b = st b) /\
    ((stack_reads (without path st) s a /\ stack_reads st' s a) \/
     (~ stack_reads (without path st) s a /\ forall a', ~ stack_reads st' s a')).

Lemma from_agrees_sim (from : astack E level -> res (raz_tree E M)) s_from :
  (forall a t, from a = Ok t -> uniq (snames a) ->
    ev (fun k => forall st sa, arep st sa a ->
      exists h st', s_from k sa st = Ok (h, st') /\ rtrep st' h t /\ upto (snames a) st st' /\
        (forall m, 0 < cnt m (snames a) -> is_node st' m))) ->
  from_agrees from s_from.
Proof.
  intros Sim a t H Nd.
  assert (Un : uniq (snames a)).
  { apply uniq_NoDup in Nd. intros n. rewrite <- stack_names_cnt. apply Nd. }
  destruct (Sim a t H Un) as [k0 K]. exists k0. intros k st s Hk R. apply stack_reads_rep in R.
  destruct (K k Hk st s R) as (h & st' & X & Y & U & N). exists h, st'.
  split; [exact X|]. split; [now apply tree_reads_rep|].
  split.
  { intros b [D|D]; apply U; [now left|right]. apply cnt_zero in D. now rewrite <- stack_names_cnt. }
  assert (F : forall b, fst b <> path -> st' b = st b) by (intros b D; apply U; auto).
  assert (Bl : below (without path st) st').
  { intros b c. unfold without. destruct (list_eq_dec name_eq_dec (fst b) path) as [e|D]; [discriminate|]. now rewrite F. }
  assert (C : stack_reads (without path st) s a \/ forall a', ~ stack_reads st' s a').
  { destruct R as [Rc Rh]. unfold snames in N.
    destruct (sa_archived s) as [s1|] eqn:Es, (archived a) as [hd|] eqn:Ea; cbn [ohrep ohnames] in *; try contradiction.
    - destruct (split_reads st st' hd s1 Rh F N) as [Z|Z].
      + left. apply stack_reads_rep. split; [exact Rc|]. now rewrite Es, Ea.
      + right. intros a' R'. apply stack_reads_rep in R'. destruct R' as [_ R']. rewrite Es in R'.
        destruct (archived a') as [h2|]; [|contradiction]. exact (Z h2 R').
    - left. apply stack_reads_rep. split; [exact Rc|]. now rewrite Es, Ea. }
  destruct C as [C|C]; [left|right].
  - split; [exact C|]. exact (stack_reads_below _ _ _ _ Bl C).
  - split; [|exact C]. intros W. apply (C a). exact (stack_reads_below _ _ _ _ Bl W).
Qed.
Theorem from_tail_agrees : from_agrees from_at_tail s_from_at_tail.
Proof. apply from_agrees_sim. intros a t. apply from_tail_sim. Qed.
Theorem from_head_agrees : from_agrees from_at_head s_from_at_head.
Proof. apply from_agrees_sim. intros a t. apply from_head_sim. Qed.
End Facts.

(** ** Other namespaces *)
Section Tame.
Context {E M : Type} {RM : RazMeta E M} {Nsp : here}.
Notation rdata := (tree_data E M).
#[local] Hint Resolve tame_ret tame_lift tame_cell tame_force_tree tame_fuel tame_tree_new tame_peek_op tame_mk
  tame_next_archive tame_leaf tame_bin : tame.

Lemma tame_map_node f d lv n l r : tame (s_map_node (E := E) (M := M) f d lv n l r).
Proof. tms @s_map_node. Qed.
#[local] Hint Resolve tame_map_node : tame.
Lemma tame_s_map f k : forall t, tame (s_map (s_map_node (E := E) (M := M) f) k t).
Proof. induction k as [|k IH]; intros t; cbn [s_map]; tm. Qed.
#[local] Hint Resolve tame_s_map : tame.
Lemma tame_rt_map k f t : tame (s_rt_map (E := E) (M := M) k f t).
Proof. tms @s_rt_map. Qed.
Lemma tame_tail k : forall s l n t m, tame (s_tail_from_stack (E := E) (M := M) k s l n t m).
Proof. induction k as [|k IH]; intros; cbn [s_tail_from_stack]; tm. Qed.
Lemma tame_head k : forall s l n t m, tame (s_head_from_stack (E := E) (M := M) k s l n t m).
Proof. induction k as [|k IH]; intros; cbn [s_head_from_stack]; tm. Qed.
#[local] Hint Resolve tame_tail tame_head : tame.
Lemma tame_from_tail k s : tame (s_from_at_tail (E := E) (M := M) k s).
Proof. tms @s_from_at_tail. Qed.
Lemma tame_from_head k s : tame (s_from_at_head (E := E) (M := M) k s).
Proof. tms @s_from_at_head. Qed.
End Tame.
