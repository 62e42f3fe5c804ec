(** * Proofs about the memoised [memo_from]: which calls run again. *)

From Coq Require Import Permutation.
From Verif Require Import Base BaseFacts Spec SpecRaz StackModel AStackModel StackProofs LevelTreeModel
  TreeCursorModel RazMetaModel RazModel TreeSpec RazView RazProofs RazFrom MemoModel MemoSpec MemoProofs MemoCost MemoTwo TreeProofs
  MemoFromModel MemoFrom.

(** ** Archive points of a stack *)
Section Points.
Context {E : Type}.
Definition pt : Type := level * option name * astack E level.
Definition plev (p : pt) : level := fst (fst p).
Fixpoint hpts (h : head (level * list E)) : list pt :=
  match h with
  | Head nm (m, v) n => (m, nm, AStack v n) :: match n with None => [] | Some h' => hpts h' end
  end.
Definition pts (s : astack E level) : list pt := match archived s with None => [] | Some h => hpts h end.
Lemma pts_cons s nm m v n : archived s = Some (Head nm (m, v) n) -> pts s = (m, nm, AStack v n) :: pts (AStack v n).
Proof. destruct s as [c a]. cbn [archived]. intros ->. reflexivity. Qed.
Lemma pts_nil s : archived s = None -> pts s = [].
Proof. unfold pts. now intros ->. Qed.
Lemma pts_split w : forall pre p post, pts w = pre ++ p :: post -> post = pts (snd p).
Proof.
  destruct w as [c [h|]]; unfold pts; cbn [archived]; [|intros [|] ? ? H; discriminate].
  revert h. fix IH 1. intros [nm [m v] n] pre p post. cbn [hpts].
  destruct pre as [|q pre]; cbn [app]; intros H.
  - injection H as <- <-. reflexivity.
  - injection H as _ H. destruct n as [h'|]; [eapply IH, H|destruct pre; discriminate].
Qed.
Lemma pts_marks s : marks (as_abs s) = map fst (pts s).
Proof.
  unfold as_abs, pts. rewrite marks_app, vatoms_eq, marks_map_Elt. cbn [app].
  destruct (archived s) as [h|]; [|reflexivity]. cbn [stabs]. revert h. fix IH 1. intros [nm [m v] n].
  cbn [habs hpts marks fst snd map]. f_equal. rewrite vatoms_eq, marks_app, marks_map_Elt. cbn [app].
  destruct n as [h|]; [apply IH|reflexivity].
Qed.
Definition asize (s : astack E level) : nat := length (as_abs s).
Lemma asize_cons s nm m v n : archived s = Some (Head nm (m, v) n) ->
  asize s = length (current s) + S (asize (AStack v n)).
Proof.
  destruct s as [c a]. cbn [archived]. intros ->. unfold asize, as_abs. cbn [current archived stabs habs fst snd].
  rewrite app_length. unfold vatoms at 1. rewrite rev_length, map_length. reflexivity.
Qed.
Lemma asize_nil s : archived s = None -> asize s = length (current s).
Proof.
  destruct s as [c a]. cbn [archived]. intros ->. unfold asize, as_abs. cbn [current archived stabs].
  rewrite app_nil_r. unfold vatoms. now rewrite rev_length, map_length.
Qed.

(** The stack holding the end of a sequence. *)
Lemma as_abs_split b : forall (w : astack E level) c, as_abs w = b ++ c ->
  exists wc pb, as_abs wc = c /\ pts w = pb ++ pts wc /\ length pb = length (marks b) /\ (b = [] -> wc = w).
Proof.
  induction b as [|x b IH]; intros w c H.
  - exists w, []. repeat split; auto.
  - destruct w as [cur ar]. destruct (list_rev_case cur) as [->|(v & e & ->)].
    + destruct ar as [[nm [m v] n]|]; [|discriminate H].
      change (Mark m nm :: as_abs (AStack v n) = x :: b ++ c) in H. injection H as <- H.
      destruct (IH _ _ H) as (wc & pb & A & P & L & _). exists wc, ((m, nm, AStack v n) :: pb).
      split; [exact A|]. rewrite (pts_cons _ nm m v n) by reflexivity. rewrite P. cbn [app length marks]. rewrite L.
      repeat split; auto. discriminate.
    + unfold as_abs in H. cbn [current archived] in H. rewrite vatoms_snoc in H. cbn [app] in H. injection H as <- H.
      destruct (IH (AStack v ar) c H) as (wc & pb & A & P & L & _). exists wc, pb.
      split; [exact A|]. split; [exact P|]. split; [exact L|discriminate].
Qed.
Lemma as_abs_inj l : forall w w' : astack E level, as_abs w = l -> as_abs w' = l -> w = w'.
Proof.
  induction l as [|x l IH]; intros [c a] [c' a'] H H'.
  - unfold as_abs in *. cbn [current archived] in *. apply app_eq_nil in H, H'. destruct H as [H1 H2], H' as [H1' H2'].
    apply (proj1 (vatoms_nil (M := level) c)) in H1. apply (proj1 (vatoms_nil (M := level) c')) in H1'. subst. destruct a as [[nm [m v] n]|]; [discriminate|].
    destruct a' as [[nm [m v] n]|]; [discriminate|]. reflexivity.
  - destruct (list_rev_case c) as [->|(v & e & ->)]; destruct (list_rev_case c') as [->|(v' & e' & ->)].
    + destruct a as [[nm [m v] n]|]; [|discriminate H]. destruct a' as [[nm' [m' v'] n']|]; [|discriminate H'].
      change (Mark m nm :: as_abs (AStack v n) = x :: l) in H. change (Mark m' nm' :: as_abs (AStack v' n') = x :: l) in H'.
      injection H as <- H. injection H' as -> -> H'. specialize (IH _ _ H H'). injection IH as -> ->. reflexivity.
    + exfalso. destruct a as [[nm [m v] n]|]; [|discriminate H].
      change (Mark m nm :: as_abs (AStack v n) = x :: l) in H. unfold as_abs in H'. cbn [current archived] in H'.
      rewrite vatoms_snoc in H'. cbn [app] in H'. congruence.
    + exfalso. destruct a' as [[nm [m v'] n]|]; [|discriminate H'].
      change (Mark m nm :: as_abs (AStack v' n) = x :: l) in H'. unfold as_abs in H. cbn [current archived] in H.
      rewrite vatoms_snoc in H. cbn [app] in H. congruence.
    + unfold as_abs in H, H'. cbn [current archived] in H, H'. rewrite vatoms_snoc in H, H'. cbn [app] in H, H'.
      injection H as <- H. injection H' as -> H'. specialize (IH (AStack v a) (AStack v' a') H H').
      injection IH as -> ->. reflexivity.
Qed.
End Points.
Arguments pt E : clear implicits.

Lemma app_cut {X} (a b c d : list X) : a ++ b = c ++ d ->
  (exists e, a = c ++ e /\ d = e ++ b) \/ (exists e, e <> [] /\ c = a ++ e /\ b = e ++ d).
Proof.
  revert c. induction a as [|x a IH]; intros c H; cbn in H.
  - destruct c as [|y c]; [left; exists []; auto|right; exists (y :: c); repeat split; auto; discriminate].
  - destruct c as [|y c]; cbn in H.
    + left. exists (x :: a). auto.
    + injection H as <- H. destruct (IH c H) as [(e & -> & ->)|(e & N & -> & ->)]; [left|right]; exists e; auto.
Qed.

Section Side.
Context {E M : Type} {RM : RazMeta E M} (eqE : forall x y : E, {x = y} + {x <> y})
  (eqD : forall x y : tree_data E M, {x = y} + {x <> y}).
Notation rtree := (tree (tree_data E M)).
Notation key := (@from_key E M).
Notation result := (@from_result E M).
Context (below : level -> level -> bool) (chk : rtree -> level -> level -> res unit)
  (lf : list E -> rtree) (mkb : rtree -> level -> option name -> rtree -> res rtree) (sz : rtree -> nat).
Hypothesis below_trans : forall a b c, below a b = true -> below b c = true -> below a c = true.
Hypothesis nbelow_trans : forall a b c, below a b = false -> below b c = false -> below a c = false.
Hypothesis chk_below : forall acc fl mx, chk acc fl mx = Ok tt -> below fl mx = true.
Hypothesis sz_leaf : forall v, sz (lf v) = length v.
Hypothesis sz_bin : forall a l n b t, mkb a l n b = Ok t -> sz t = S (sz a + sz b).
Notation first := (first below chk lf).
Notation cont := (cont below mkb).
Notation pure := (pure first cont mk).
Notation all_calls := (all_calls first cont mk).
Notation from := (from below chk lf mkb).
Notation m_from := (m_from eqE eqD below chk lf mkb).
Notation top_key := (top_key (M := M) lf).

Definition kpt (k : key) : pt E := (k_level k, k_name k, k_stack k).
Definition rp (r : result) : list (pt E) :=
  match r with (_, None, _, _) => [] | (s, Some l, n, _) => (l, n, s) :: pts s end.
Definition total (k : key) : nat := S (sz (k_acc k) + asize (k_stack k)).
Definition rtotal (r : result) : nat :=
  match r with (_, None, _, t) => sz t | (s, Some _, _, t) => sz t + S (asize s) end.
Definition stops (r : result) (l : level) : Prop :=
  match r with (_, None, _, _) => True | (_, Some l', _, _) => below l' l = false end.

Lemma calls_of k r : pure k = Ok r ->
  exists a r1 b, first k = Ok a /\ cont k r1 = Ok b /\
    match a with inl x => x = r1 | inr k1 => mk k1 < mk k /\ pure k1 = Ok r1 end /\
    mr r1 < mk k /\
    match b with inl x => x = r | inr k2 => mk k2 < mk k /\ pure k2 = Ok r end /\
    all_calls k = k :: match a with inl _ => [] | inr k1 => all_calls k1 end
                      ++ match b with inl _ => [] | inr k2 => all_calls k2 end.
Proof. exact (all_calls_cases first cont mk mr mk_pos (first_l _ _ _) (first_r _ _ _) (cont_l _ _) (cont_r _ _) k r). Qed.
Lemma calls_closed k r : pure k = Ok r -> forall k', In k' (all_calls k) ->
  incl (all_calls k') (all_calls k) /\ exists r', pure k' = Ok r'.
Proof.
  exact (all_calls_closed first cont mk mr mk_pos (first_l _ _ _) (first_r _ _ _) (cont_l _ _) (cont_r _ _) _ k r (le_n _)).
Qed.

(** ** One call *)
Lemma step_first k x : first k = Ok x ->
  match x with
  | inl r1 => pts (k_stack k) = rp r1 /\ stops r1 (k_level k) /\ rtotal r1 = asize (k_stack k)
  | inr k1 => pts (k_stack k) = kpt k1 :: pts (k_stack k1) /\ k_max k1 = k_level k /\
      below (k_level k1) (k_level k) = true /\ total k1 = asize (k_stack k)
  end.
Proof using sz_leaf.
  intros H. apply first_cases in H. destruct H as (_ & [(Ar & _ & ->)|(m & v & n & Ar & ->)]).
  - cbn [rp stops rtotal]. rewrite pts_nil, asize_nil, sz_leaf by exact Ar. auto.
  - destruct (below m (k_level k)) eqn:B.
    + unfold total, kpt, k_stack, k_level, k_name, k_max, k_acc. cbn [fst snd].
      fold (k_stack k). rewrite (pts_cons _ _ _ _ _ Ar), (asize_cons _ _ _ _ _ Ar), sz_leaf. repeat split; auto; lia.
    + cbn [rp stops rtotal]. rewrite (pts_cons _ _ _ _ _ Ar), (asize_cons _ _ _ _ _ Ar), sz_leaf. auto.
Qed.
Lemma step_cont k r1 x : cont k r1 = Ok x ->
  match x with
  | inl r => rp r = rp r1 /\ stops r (k_max k) /\ rtotal r = S (sz (k_acc k) + rtotal r1)
  | inr k2 => rp r1 = kpt k2 :: pts (k_stack k2) /\ k_max k2 = k_max k /\
      total k2 = S (sz (k_acc k) + rtotal r1) /\ stops r1 (k_level k2) = (below (k_level k2) (k_level k2) = false) /\
      forall l, stops r1 l = (below (k_level k2) l = false)
  end.
Proof using sz_bin.
  intros H. apply cont_cases in H. destruct H as (t & Hb & ->). apply sz_bin in Hb.
  destruct r1 as [[[sh [lev|]] fn2] sm]; cbn [snd] in Hb.
  - destruct (below lev (k_max k)) eqn:B.
    + unfold total, kpt, k_stack, k_level, k_name, k_max, k_acc. cbn [fst snd rp rtotal stops]. fold (k_acc k).
      rewrite Hb. repeat split; auto; lia.
    + cbn [rp rtotal stops]. rewrite Hb. repeat split; auto; lia.
  - cbn [rp rtotal stops]. rewrite Hb. repeat split; auto; lia.
Qed.

(** ** A call and everything it leads to *)
Lemma calls_seg N : forall k r, mk k <= N -> pure k = Ok r ->
  below (k_level k) (k_max k) = true /\ stops r (k_max k) /\ rtotal r = total k /\
  exists seg, pts (k_stack k) = seg ++ rp r /\ (forall p, In p seg -> below (plev p) (k_max k) = true) /\
    Permutation (map kpt (all_calls k)) (kpt k :: seg).
Proof using below_trans chk_below sz_leaf sz_bin.
  induction N as [|N IH]; intros k r L P; [pose proof (mk_pos k); lia|].
  destruct (calls_of k r P) as (a & r1 & b & Fi & Co & Ha & _ & Hb & ->).
  assert (Bk : below (k_level k) (k_max k) = true).
  { apply first_cases in Fi. destruct Fi as (Fi & _). now apply chk_below in Fi. }
  assert (X : stops r1 (k_level k) /\ rtotal r1 = asize (k_stack k) /\
    exists seg1, pts (k_stack k) = seg1 ++ rp r1 /\ (forall p, In p seg1 -> below (plev p) (k_level k) = true) /\
    Permutation (map kpt match a with inl _ => [] | inr k1 => all_calls k1 end) seg1).
  { apply step_first in Fi. destruct a as [x|k1].
    - subst x. destruct Fi as (F1 & F2 & F3). split; [exact F2|]. split; [exact F3|]. exists []. rewrite F1. split; [reflexivity|].
      split; [intros p []|constructor].
    - destruct Fi as (F1 & F2 & F3 & F4), Ha as (L1 & P1).
      destruct (IH k1 r1 ltac:(lia) P1) as (B1 & S1 & T1 & seg & Sg & Bs & Pm). rewrite F2 in *.
      split; [exact S1|]. split; [congruence|]. exists (kpt k1 :: seg). split; [rewrite F1, Sg; reflexivity|].
      split; [|exact Pm]. intros p [<-|I]; auto. }
  destruct X as (S1 & T1 & seg1 & Sg1 & Bs1 & Pm1). split; [exact Bk|].
  cbn [map]. rewrite map_app. apply step_cont in Co. destruct b as [x|k2].
  - subst x. destruct Co as (C1 & C2 & C3). split; [exact C2|]. split; [unfold total; lia|].
    exists seg1. rewrite C1. split; [exact Sg1|]. split; [intros p I; eauto|]. cbn [map]. rewrite app_nil_r. now constructor.
  - destruct Co as (C1 & C2 & C3 & C4 & _), Hb as (L2 & P2).
    destruct (IH k2 r ltac:(lia) P2) as (B2 & S2 & T2 & seg2 & Sg2 & Bs2 & Pm2). rewrite C2 in *.
    split; [exact S2|]. split; [unfold total at 1; lia|].
    exists (seg1 ++ kpt k2 :: seg2). split; [rewrite Sg1, C1, Sg2, <- app_assoc; reflexivity|]. split.
    + intros p I. apply in_app_iff in I. destruct I as [I|[<-|I]]; eauto.
    + constructor. now apply Permutation_app.
Qed.

(** Where the arguments of a call come from: from everything above it, or from the call
    at the nearest archive point above that is higher. *)
Definition origin (all : list (pt E)) (calls : list key) (mx : level) (tot : nat) (k : key) : Prop :=
  exists pre, all = pre ++ kpt k :: pts (k_stack k) /\
   ((k_max k = mx /\ total k = tot /\ forall p, In p pre -> below (k_level k) (plev p) = false) \/
    exists pre1 k1 pre2 ks, pre = pre1 ++ kpt k1 :: pre2 /\ In k1 calls /\ first k1 = Ok (inr ks) /\
      In k (all_calls ks) /\ k_max k = k_level k1 /\ forall p, In p pre2 -> below (k_level k) (plev p) = false).
Lemma calls_origin N : forall k r, mk k <= N -> pure k = Ok r -> forall k', In k' (all_calls k) ->
  origin (kpt k :: pts (k_stack k)) (all_calls k) (k_max k) (total k) k'.
Proof using below_trans nbelow_trans chk_below sz_leaf sz_bin.
  induction N as [|N IH]; intros k r L P k' I; [pose proof (mk_pos k); lia|].
  destruct (calls_of k r P) as (a & r1 & b & Fi & Co & Ha & _ & Hb & Ek). rewrite Ek in I |- *.
  destruct I as [<-|I].
  { exists []. split; [reflexivity|]. left. repeat split; auto. intros p []. }
  assert (X : exists seg1, pts (k_stack k) = seg1 ++ rp r1 /\ (forall p, In p seg1 -> below (plev p) (k_level k) = true) /\
    stops r1 (k_level k) /\ rtotal r1 = asize (k_stack k)).
  { pose proof (step_first k _ Fi) as F. destruct a as [x|k1].
    - subst x. exists []. destruct F as (F1 & F2 & F3). split; [exact F1|]. split; [intros p []|auto].
    - destruct F as (F1 & F2 & F3 & F4), Ha as (L1 & P1).
      destruct (calls_seg N k1 r1 ltac:(lia) P1) as (B1 & S1 & T1 & seg & Sg & Bs & Pm). rewrite F2 in *.
      exists (kpt k1 :: seg). split; [rewrite F1, Sg; reflexivity|]. split; [|split; [exact S1|congruence]].
      intros p [<-|J]; auto. }
  destruct X as (seg1 & Sg1 & Bs1 & S1 & T1).
  apply in_app_iff in I. destruct I as [I|I].
  - destruct a as [x|k1]; [contradiction|]. destruct Ha as (L1 & P1).
    pose proof (step_first k _ Fi) as (F1 & F2 & F3 & F4).
    destruct (IH k1 r1 ltac:(lia) P1 k' I) as (pre & Pe & Or). rewrite <- F1 in Pe. exists (kpt k :: pre).
    split; [rewrite Pe; reflexivity|]. right. destruct Or as [(O1 & O2 & O3)|(pre1 & q & pre2 & ks & -> & Iq & Fq & J & Mq & O3)].
    + exists [], k, pre, k1. repeat split; auto; [now left|congruence].
    + exists (kpt k :: pre1), q, pre2, ks. repeat split; auto. right. apply in_app_iff. now left.
  - destruct b as [x|k2]; [contradiction|]. destruct Hb as (L2 & P2).
    pose proof (step_cont k _ _ Co) as (C1 & C2 & C3 & _ & C4).
    destruct (IH k2 r ltac:(lia) P2 k' I) as (pre & Pe & Or). rewrite <- C1 in Pe.
    exists (kpt k :: seg1 ++ pre). split; [rewrite Sg1, Pe; cbn [app]; now rewrite <- app_assoc|].
    destruct Or as [(O1 & O2 & O3)|(pre1 & q & pre2 & ks & -> & Iq & Fq & J & Mq & O3)].
    + left. split; [congruence|]. split; [unfold total at 2; lia|].
      assert (Nk : below (k_level k') (k_level k) = false).
      { rewrite C4 in S1. destruct pre as [|q pre].
        - rewrite C1 in Pe. cbn [app] in Pe. injection Pe as Q1 Q2 Q3 _. unfold kpt in *. now rewrite <- Q1.
        - rewrite C1 in Pe. cbn [app] in Pe. injection Pe as Q1 _. apply (nbelow_trans _ (k_level k2)); [|exact S1].
          specialize (O3 q (or_introl eq_refl)). rewrite <- Q1 in O3. exact O3. }
      intros p [<-|J]; [exact Nk|]. apply in_app_iff in J. destruct J as [J|J]; [|auto].
      destruct (below (k_level k') (plev p)) eqn:B; [|reflexivity]. rewrite <- Nk. symmetry. eauto.
    + right. exists (kpt k :: seg1 ++ pre1), q, pre2, ks. repeat split; auto.
      * cbn [app]. now rewrite <- app_assoc.
      * right. apply in_app_iff. now right.
Qed.

(** ** A conversion *)
Definition qof (s : astack E level) : list key := match top_key s with None => [] | Some k => all_calls k end.
Lemma top_pts s k : top_key s = Some k -> pts s = kpt k :: pts (k_stack k) /\ k_max k = u32_max /\ total k = asize s.
Proof using sz_leaf.
  destruct s as [c [[nm [m v] n]|]]; unfold MemoFrom.top_key; cbn [archived]; intros H; inv H.
  unfold total, kpt, k_stack, k_level, k_name, k_max, k_acc. cbn [fst snd current]. rewrite sz_leaf.
  rewrite (asize_cons (AStack c (Some (Head nm (m, v) n))) nm m v n eq_refl). cbn [current]. repeat split; auto; lia.
Qed.
Lemma no_top_pts s : top_key s = None -> pts s = [].
Proof. destruct s as [c [[nm [m v] n]|]]; unfold MemoFrom.top_key; cbn [archived]; intros H; [discriminate|reflexivity]. Qed.
Lemma from_pure s t : from s = Ok t -> match top_key s with
  | None => True
  | Some k => exists r, pure k = Ok r /\ rp r = []
  end.
Proof.
  unfold MemoFrom.from. destruct (top_key s) as [k|]; [|auto]. intros H. apply bind_Ok in H. destruct H as (r & P & H).
  exists r. split; [exact P|]. destruct r as [[[s2 [l|]] n] tr]; [discriminate H|reflexivity].
Qed.
Lemma qof_pure s t : from s = Ok t -> forall k, In k (qof s) -> exists r, pure k = Ok r.
Proof.
  intros H. apply from_pure in H. unfold qof. destruct (top_key s) as [k0|]; [|intros k []].
  destruct H as (r & P & _). intros k I. now destruct (calls_closed k0 r P k I).
Qed.
Lemma qof_closed s t : from s = Ok t -> forall k, In k (qof s) -> incl (all_calls k) (qof s).
Proof.
  intros H. apply from_pure in H. unfold qof. destruct (top_key s) as [k0|]; [|intros k []].
  destruct H as (r & P & _). intros k I. now destruct (calls_closed k0 r P k I).
Qed.
Lemma qof_points s t : from s = Ok t -> Permutation (map kpt (qof s)) (pts s).
Proof using below_trans chk_below sz_leaf sz_bin.
  intros H. apply from_pure in H. unfold qof. destruct (top_key s) as [k|] eqn:T.
  - destruct H as (r & P & R). destruct (top_pts s k T) as (-> & _ & _).
    destruct (calls_seg (mk k) k r (le_n _) P) as (_ & _ & _ & seg & Sg & _ & Pm).
    rewrite R, app_nil_r in Sg. now rewrite Sg.
  - now rewrite no_top_pts.
Qed.
Lemma qof_origin s t : from s = Ok t -> forall k, In k (qof s) -> origin (pts s) (qof s) u32_max (asize s) k.
Proof using below_trans nbelow_trans chk_below sz_leaf sz_bin.
  intros H. apply from_pure in H. unfold qof. destruct (top_key s) as [k0|] eqn:T; [|intros k []].
  destruct H as (r & P & _). destruct (top_pts s k0 T) as (-> & Mx & Tt). rewrite <- Mx, <- Tt.
  exact (calls_origin (mk k0) k0 r (le_n _) P).
Qed.
Lemma same_first k1 k2 r1 r2 ks : pure k1 = Ok r1 -> pure k2 = Ok r2 -> kpt k1 = kpt k2 ->
  first k1 = Ok (inr ks) -> In ks (all_calls k2).
Proof.
  intros P1 P2 Q F1. destruct (calls_of k2 r2 P2) as (a & r & b & F2 & _ & Ha & _ & _ & ->).
  unfold kpt in Q. injection Q as Q1 Q2 Q3.
  apply first_cases in F1, F2. rewrite Q1, Q3 in F1.
  destruct F1 as (_ & [(_ & _ & F1)|(m & v & n & A1 & F1)]); [discriminate|].
  destruct F2 as (_ & [(A2 & _)|(m' & v' & n' & A2 & F2)]); [congruence|].
  assert (X : m = m' /\ v = v' /\ n = n') by (rewrite A1 in A2; injection A2; auto). destruct X as (<- & <- & <-).
  rewrite <- F1 in F2. subst a. right. apply in_app_iff. left.
  destruct Ha as (_ & P). destruct (calls_of ks r P) as (? & ? & ? & _ & _ & _ & _ & _ & ->). now left.
Qed.

(** ** Counting *)
Fixpoint nrec (above rest : list level) : nat :=
  match rest with
  | [] => 0
  | m :: r => (if forallb (fun q => negb (below m q)) above then 1 else 0) + nrec (m :: above) r
  end.
Section Count.
Context (C : list (pt E)) (C_split : forall pre p post, C = pre ++ p :: post -> post = pts (snd p)).
Definition inner (p : pt E) : bool :=
  (length C <=? length (pts (snd p))) ||
  forallb (fun q => negb (below (plev p) (plev q))) (firstn (length C - 1 - length (pts (snd p))) C).
Lemma inner_count : forall B A, C = A ++ B -> length (filter inner B) = nrec (map plev (rev A)) (map plev B).
Proof using C_split.
  induction B as [|p B IH]; intros A H; [reflexivity|]. cbn [filter map nrec].
  pose proof (C_split _ _ _ H) as HB.
  assert (I : inner p = forallb (fun q => negb (below (plev p) q)) (map plev (rev A))).
  { unfold inner. rewrite <- HB, H, app_length. cbn [length].
    replace (length A + S (length B) <=? length B) with false by (symmetry; apply Nat.leb_gt; lia). cbn [orb].
    replace (length A + S (length B) - 1 - length B) with (length A) by lia.
    rewrite firstn_app, firstn_all, Nat.sub_diag, firstn_O, app_nil_r.
    apply eq_true_iff_eq. rewrite !forallb_forall. split.
    - intros Q q J. apply in_map_iff in J. destruct J as (x & <- & J). apply Q. now apply in_rev.
    - intros Q q J. apply Q, in_map. now apply -> in_rev. }
  specialize (IH (A ++ [p])). rewrite <- app_assoc in IH. specialize (IH H).
  rewrite rev_app_distr in IH. cbn [rev app map] in IH. rewrite <- IH, <- I.
  destruct (inner p); reflexivity.
Qed.
End Count.
Lemma filter_all {X} (f : X -> bool) l : (forall x, In x l -> f x = true) -> filter f l = l.
Proof.
  induction l as [|x l IH]; intros H; [reflexivity|]. cbn [filter]. rewrite (H x (or_introl eq_refl)). f_equal.
  apply IH. intros y J. apply H. now right.
Qed.
Lemma filter_perm {X} (f : X -> bool) l l' : Permutation l l' -> length (filter f l) = length (filter f l').
Proof.
  induction 1; cbn [filter]; auto.
  - destruct (f x); cbn [length]; congruence.
  - destruct (f x), (f y); reflexivity.
  - congruence.
Qed.
Lemma filter_map_length {X Y} (f : X -> Y) (g : Y -> bool) l : length (filter g (map f l)) = length (filter (fun x => g (f x)) l).
Proof. induction l as [|x l IH]; [reflexivity|]. cbn [map filter]. destruct (g (f x)); cbn [length]; congruence. Qed.
Lemma filter_le {X} (f g : X -> bool) l : (forall x, In x l -> f x = true -> g x = true) ->
  length (filter f l) <= length (filter g l).
Proof.
  induction l as [|x l IH]; intros H; [reflexivity|]. cbn [filter].
  assert (Y : length (filter f l) <= length (filter g l)) by (apply IH; intros y J; apply H; now right).
  destruct (f x) eqn:Fx; [rewrite (H x (or_introl eq_refl) Fx); cbn [length]; lia|].
  destruct (g x); cbn [length]; lia.
Qed.

Notation fresh := (fresh (from_same eqE eqD)).
Section Rerun.
Context (w w' : astack E level) (t t' : raz_tree E M) (a b c : list (atom E level)).
Hypothesis from_w : from w = Ok t.
Hypothesis from_w' : from w' = Ok t'.
Hypothesis abs_w : as_abs w = a ++ c.
Hypothesis abs_w' : as_abs w' = b ++ c.

Lemma rerun_le : length (filter (fresh (qof w)) (qof w')) <= length (marks b) + nrec [] (map fst (marks c)).
Proof using below_trans nbelow_trans chk_below sz_leaf sz_bin from_w from_w' abs_w abs_w'.
  destruct (as_abs_split _ _ _ abs_w) as (wc & pa & Ac & Pa & _ & _).
  destruct (as_abs_split _ _ _ abs_w') as (wc' & pb & Ac' & Pb & Lb & _).
  pose proof (as_abs_inj _ _ _ Ac Ac') as Q. subst wc'. clear Ac'.
  set (C := pts wc) in *.
  assert (CS : forall pre p post, C = pre ++ p :: post -> post = pts (snd p)) by (intros pre p post; apply pts_split).
  transitivity (length (filter (inner C) (pts w'))).
  - rewrite <- (filter_perm _ _ _ (qof_points w' t' from_w')), filter_map_length. apply filter_le.
    intros k I F. unfold inner. cbn [kpt snd]. apply orb_true_iff.
    destruct (qof_origin w' t' from_w' k I) as (pre & Pk & Or). rewrite Pb in Pk.
    apply app_cut in Pk. destruct Pk as [(e & _ & Pk)|(e & Ne & -> & Pk)].
    + destruct e as [|x e].
      * right. cbn [app] in Pk. cbn [app] in *.
        replace (length C - 1 - length (pts (k_stack k))) with 0 by (rewrite <- Pk; cbn [length]; lia). reflexivity.
      * left. cbn [app] in Pk. injection Pk as _ Pk. apply Nat.leb_le. rewrite Pk, app_length. lia.
    + right. rewrite Pk.
      assert (Dp : length (e ++ kpt k :: pts (k_stack k)) - 1 - length (pts (k_stack k)) = length e).
      { rewrite app_length. cbn [length]. lia. }
      rewrite Dp, firstn_app, firstn_all, Nat.sub_diag, firstn_O, app_nil_r.
      apply forallb_forall. intros q Jq. apply negb_true_iff.
      destruct (below (plev (kpt k)) (plev q)) eqn:B; [|reflexivity]. exfalso. change (below (k_level k) (plev q) = true) in B.
      destruct Or as [(_ & _ & O)|(pre1 & k1 & pre2 & ks & Pe & I1 & F1 & Ik & _ & O)].
      * specialize (O q ltac:(apply in_app_iff; now right)). congruence.
      * assert (In (kpt k1) e).
        { apply app_cut in Pe. destruct Pe as [(e' & -> & Pe)|(e' & Ne' & -> & Pe)].
          - (* the call above is in the part that differs, or at its end *)
            destruct e' as [|x e'].
            + cbn [app] in Pe. rewrite <- Pe. now left.
            + cbn [app] in Pe. injection Pe as _ Pe. exfalso.
              specialize (O q). rewrite Pe in O. specialize (O ltac:(apply in_app_iff; now right)). congruence.
          - rewrite Pe. apply in_app_iff. right. now left. }
        assert (Iw : In (kpt k1) (pts w)). { rewrite Pa. apply in_app_iff. right. rewrite Pk. apply in_app_iff. now left. }
        apply (Permutation_in _ (Permutation_sym (qof_points w t from_w))) in Iw. apply in_map_iff in Iw.
        destruct Iw as (kq & Eq & Iq). destruct (qof_pure w t from_w kq Iq) as (rq & Pq).
        destruct (qof_pure w' t' from_w' k1 I1) as (r1 & P1).
        pose proof (same_first k1 kq r1 rq ks P1 Pq (eq_sym Eq) F1) as Is.
        apply (qof_closed w t from_w kq Iq) in Is. apply (qof_closed w t from_w ks Is) in Ik.
        apply (proj2 (fresh_false (from_same eqE eqD) (from_same_eq eqE eqD) (qof w) k)) in Ik. congruence.
  - rewrite Pb, filter_app, app_length. rewrite filter_all.
    + rewrite Lb. apply Nat.add_le_mono_l. rewrite (inner_count C CS C [] eq_refl). cbn [rev map].
      rewrite <- Ac, pts_marks, map_map. reflexivity.
    + intros p J. unfold inner. apply in_split in J. destruct J as (p1 & p2 & ->).
      rewrite <- app_assoc in Pb. cbn [app] in Pb. apply pts_split in Pb. rewrite <- Pb, app_length.
      replace (length C <=? length p2 + length C) with true by (symmetry; apply Nat.leb_le; lia). reflexivity.
Qed.

Hypothesis a_nil : a = [].
Hypothesis b_cons : b <> [].
Hypothesis names_w' : NoDup (map snd (marks (as_abs w'))).
Hypothesis levels_w' : Forall (fun p => fst p <> u32_max) (marks (as_abs w')).
Lemma rerun_eq : length (filter (fresh (qof w)) (qof w')) = length (marks b) + nrec [] (map fst (marks c)).
Proof using below_trans nbelow_trans chk_below sz_leaf sz_bin from_w from_w' abs_w abs_w' a_nil b_cons names_w' levels_w'.
  apply Nat.le_antisymm; [exact rerun_le|].
  subst a. cbn [app] in abs_w.
  destruct (as_abs_split _ _ _ abs_w') as (wc & pb & Ac & Pb & Lb & _).
  pose proof (as_abs_inj _ _ _ Ac abs_w) as Q. subst wc. clear Ac.
  set (C := pts w) in *.
  assert (CS : forall pre p post, C = pre ++ p :: post -> post = pts (snd p)) by (intros pre p post; apply pts_split).
  assert (Sz : asize w <> asize w').
  { unfold asize. rewrite abs_w', abs_w, app_length. destruct b; [congruence|]. cbn [length]. lia. }
  transitivity (length (filter (inner C) (pts w'))).
  - rewrite Pb, filter_app, app_length. rewrite filter_all.
    + rewrite Lb. apply Nat.add_le_mono_l. rewrite (inner_count C CS C [] eq_refl). cbn [rev map].
      rewrite <- abs_w, pts_marks, map_map. reflexivity.
    + intros p J. unfold inner. apply in_split in J. destruct J as (p1 & p2 & ->).
      rewrite <- app_assoc in Pb. cbn [app] in Pb. apply pts_split in Pb. rewrite <- Pb, app_length.
      replace (length C <=? length p2 + length C) with true by (symmetry; apply Nat.leb_le; lia). reflexivity.
  - rewrite <- (filter_perm _ _ _ (qof_points w' t' from_w')), filter_map_length. apply filter_le.
    intros k I F. destruct (fresh (qof w) k) eqn:Fr; [reflexivity|]. exfalso.
    apply (fresh_false (from_same eqE eqD) (from_same_eq eqE eqD) (qof w) k) in Fr.
    destruct (qof_origin w t from_w k Fr) as (pre & Pk & Or). fold C in Pk.
    assert (Dp : length C = length pre + S (length (pts (k_stack k)))).
    { rewrite Pk at 1. rewrite app_length. reflexivity. }
    unfold inner in F. cbn [kpt snd] in F. apply orb_true_iff in F. destruct F as [F|F]; [apply Nat.leb_le in F; lia|].
    replace (length C - 1 - length (pts (k_stack k))) with (length pre) in F by lia.
    assert (Fi : firstn (length pre) C = pre). { rewrite Pk at 1. now rewrite firstn_app, firstn_all, Nat.sub_diag, firstn_O, app_nil_r. }
    rewrite Fi in F. rewrite forallb_forall in F.
    destruct (qof_pure w t from_w k Fr) as (rk & Pu).
    destruct (calls_seg (mk k) k rk (le_n _) Pu) as (Bk & _).
    destruct Or as [(Mx & Tt & _)|(pre1 & k1 & pre2 & ks & -> & _ & _ & _ & Mx & _)].
    + destruct (qof_origin w' t' from_w' k I) as (pre' & Pk' & [(_ & Tt' & _)|(pre1 & k1 & pre2 & ks & -> & I1 & _ & _ & Mx' & _)]).
      * congruence.
      * rewrite pts_marks in levels_w'. rewrite Forall_forall in levels_w'.
        apply (levels_w' (fst (kpt k1))); [|cbn [kpt fst]; congruence]. apply in_map. rewrite Pk', <- app_assoc. apply in_app_iff. right. now left.
    + specialize (F (kpt k1)). rewrite negb_true_iff in F. rewrite Mx in Bk. unfold plev in F. cbn [kpt fst] in F.
      rewrite F in Bk; [discriminate|]. apply in_app_iff. right. now left.
Qed.
End Rerun.
Lemma rerun_same w t : from w = Ok t -> filter (fresh (qof w)) (qof w) = [].
Proof. intros _. apply (fresh_none (from_same eqE eqD) (from_same_eq eqE eqD)). apply incl_refl. Qed.

(** ** Histories *)
Definition pnames (s : astack E level) : list (option name) := map snd (marks (as_abs s)).
Lemma qof_names s t : from s = Ok t -> Permutation (map k_name (qof s)) (pnames s).
Proof using below_trans chk_below sz_leaf sz_bin.
  intros H. unfold pnames. rewrite pts_marks, map_map. change k_name with (fun k => snd (fst (kpt k))).
  rewrite <- (map_map kpt (fun x => snd (fst x))). apply Permutation_map. now apply qof_points in H.
Qed.
Definition inv (tab : mtab key result) (hist : list (astack E level)) : Prop :=
  sound pure tab /\
  match hist with [] => True | w :: _ => filled knm tab (qof w) end /\
  forall n x, tab n = Some x -> exists u m, In u hist /\ n = NForkL m /\ In (Some m) (pnames u).
Lemma inv_nil : inv no_memos [].
Proof. split; [apply no_memos_sound|]. split; [exact I|]. intros n x H. discriminate. Qed.
Definition last_calls (hist : list (astack E level)) : list key := match hist with [] => [] | w :: _ => qof w end.

Lemma m_from_step hist w t tab : inv tab hist -> Forall (fun s => exists t, from s = Ok t) hist -> from w = Ok t ->
  orderly_points (map as_abs (w :: hist)) ->
  exists tab', m_from w tab = Ok (t, tab', filter (fresh (last_calls hist)) (qof w)) /\ inv tab' (w :: hist).
Proof using below_trans nbelow_trans chk_below sz_leaf sz_bin.
  intros (S & Fl & Us) Fh Fw Or. cbn [map orderly_points] in Or. destruct Or as (Or & Na & Nd & Nn).
  pose proof (qof_names w t Fw) as Pn. unfold pnames in Pn.
  assert (NN : forall k, In k (qof w) -> exists m, k_name k = Some m /\ knm k = Some (NForkL m) /\ has_point m (as_abs w)).
  { intros k I. pose proof (Permutation_in _ Pn (in_map k_name _ _ I)) as J. apply in_map_iff in J.
    destruct J as (p & Ep & Ip). specialize (Na p Ip). destruct (k_name k) as [m|] eqn:Km; [|congruence].
    exists m. split; [reflexivity|]. split; [unfold knm; now rewrite Km|]. unfold has_point. rewrite <- Ep. now apply in_map. }
  assert (ND : NoDup (map knm (qof w))).
  { change knm with (fun k : key => fork_left (k_name k)). rewrite <- (map_map k_name fork_left).
    apply FinFun.Injective_map_NoDup.
    - intros [x|] [y|] H; inversion H; reflexivity.
    - apply (Permutation_NoDup (Permutation_sym Pn) Nd). }
  assert (Cl : forall k, In k (last_calls hist) -> incl (all_calls k) (last_calls hist)).
  { destruct hist as [|p hist]; [intros k []|]. cbn [last_calls]. inv Fh. destruct H1 as (tp & Fp). apply (qof_closed p tp Fp). }
  assert (Rd : ready knm (last_calls hist) tab (qof w)).
  { intros k n I N. destruct (NN k I) as (m & Km & Kn & Hm). assert (n = NForkL m) by congruence. subst n.
    destruct hist as [|p hist]; cbn [last_calls].
    - split; [intros []|]. intros (r & T). destruct (Us _ _ T) as (u & m' & [] & _).
    - split; [intros J; exact (Fl k _ J N)|]. intros (r & T).
      destruct (Us _ _ T) as (u & m' & Iu & Em & Im). injection Em as <-.
      cbn [map] in Nn. destruct (Nn m Hm) as [Hp|Hp].
      + inv Fh. destruct H1 as (tp & Fp). apply (Permutation_in _ (Permutation_sym (qof_names p tp Fp))) in Hp.
        apply in_map_iff in Hp. destruct Hp as (k' & Kk & Ik).
        destruct (Fl k' (NForkL m) Ik) as (r' & T'); [unfold knm; now rewrite Kk|].
        rewrite T in T'. injection T' as <- _. exact Ik.
      + exfalso. apply (Hp (as_abs u)); [|exact Im]. change (In (as_abs u) (map as_abs (p :: hist))). now apply in_map. }
  assert (Us' : forall tab', only knm tab tab' (qof w) -> forall n x, tab' n = Some x ->
    exists u m, In u (w :: hist) /\ n = NForkL m /\ In (Some m) (pnames u)).
  { intros tab' O n x T. destruct (in_dec (fun a b : option name => oname_eq_dec a b) (Some n) (map knm (qof w))) as [J|J].
    - apply in_map_iff in J. destruct J as (k & Kn & I). destruct (NN k I) as (m & _ & Kn' & Hm).
      exists w, m. split; [now left|]. split; [congruence|exact Hm].
    - rewrite (O n J) in T. destruct (Us n x T) as (u & m & Iu & R). exists u, m. split; [now right|exact R]. }
  unfold MemoFrom.m_from. pose proof (from_pure w t Fw) as Pu. unfold MemoFrom.from in Fw. unfold qof in *.
  destruct (top_key w) as [k|] eqn:T.
  - destruct Pu as (r & Pk & _). rewrite Pk in Fw. cbn [bind] in Fw.
    pose proof (top_mk lf w k T) as Lk.
    destruct (memo_two_work (from_same eqE eqD) (from_same_eq eqE eqD) knm first cont mk mr mk_pos
      (first_l _ _ _) (first_r _ _ _) (cont_l _ _) (cont_r _ _) (last_calls hist) Cl (Datatypes.S (Datatypes.S (archives w))) k r tab)
      as (tab' & -> & S' & F' & O'); auto; [lia| |].
    { intros k' I' Z. destruct (NN k' I') as (m & _ & Kn & _). congruence. }
    cbn [bind]. rewrite Fw. cbn [bind]. exists tab'. split; [reflexivity|]. split; [exact S'|]. split; [|now apply Us'].
    unfold qof. rewrite T. exact F'.
  - rewrite Fw. cbn [bind filter]. exists tab. split; [reflexivity|]. split; [exact S|]. split; [unfold qof; rewrite T; intros ? ? []|].
    apply Us'. intros n _. reflexivity.
Qed.
Lemma m_from_Ok w tab t tab' lg : sound pure tab -> m_from w tab = Ok (t, tab', lg) -> from w = Ok t.
Proof. intros S H. destruct (m_from_sound eqE eqD below chk lf mkb w tab S) as (A & _). rewrite H in A. now symmetry. Qed.
Lemma runs_snoc {X K R Y L} (run : X -> mtab K R -> res (Y * mtab K R * list L)) xs : forall x tab rs T lgs,
  runs run (xs ++ [x]) tab = Ok (rs, T, lgs) ->
  exists rs0 T0 lgs0 y lg, runs run xs tab = Ok (rs0, T0, lgs0) /\ run x T0 = Ok (y, T, lg) /\ rs = rs0 ++ [y] /\ lgs = lgs0 ++ [lg].
Proof.
  induction xs as [|a xs IH]; intros x tab rs T lgs H; cbn [app runs] in H.
  - apply bind_Ok in H. destruct H as ([[y tab1] lg] & Hr & H). cbn [bind] in H. inv H. exists [], tab, [], y, lg. auto.
  - apply bind_Ok in H. destruct H as ([[y tab1] lg] & Hr & H). apply bind_Ok in H. destruct H as ([[ys tab2] lgs2] & Hs & H). inv H.
    destruct (IH _ _ _ _ _ Hs) as (rs0 & T0 & lgs0 & y' & lg' & H0 & H1 & -> & ->).
    exists (y :: rs0), T0, (lg :: lgs0), y', lg'. cbn [runs]. rewrite Hr. cbn [bind]. rewrite H0. cbn [bind]. auto.
Qed.
Lemma history hist : orderly_points (map as_abs hist) -> forall rs T lgs, runs m_from (rev hist) no_memos = Ok (rs, T, lgs) ->
  inv T hist /\ Forall (fun s => exists t, from s = Ok t) hist.
Proof using below_trans nbelow_trans chk_below sz_leaf sz_bin.
  induction hist as [|w hist IH]; intros Or rs T lgs H.
  - cbn [rev runs] in H. inv H. split; [apply inv_nil|constructor].
  - cbn [rev] in H. destruct (runs_snoc _ _ _ _ _ _ _ H) as (rs0 & T0 & lgs0 & y & lg & H0 & H1 & _ & _).
    pose proof Or as Or'. cbn [map orderly_points] in Or'. destruct Or' as (Or0 & _).
    destruct (IH Or0 _ _ _ H0) as (I0 & F0). pose proof (m_from_Ok _ _ _ _ _ (proj1 I0) H1) as Fw.
    split; [|constructor; eauto]. destruct (m_from_step hist w y T0 I0 F0 Fw Or) as (T' & H2 & I2).
    rewrite H1 in H2. now inv H2.
Qed.

(** The calls that run when the history goes on with [w]. *)
Lemma next_run hist w rs T lgs t T' lg : orderly_points (map as_abs (w :: hist)) ->
  runs m_from (rev hist) no_memos = Ok (rs, T, lgs) -> m_from w T = Ok (t, T', lg) ->
  from w = Ok t /\ Forall (fun s => exists t, from s = Ok t) hist /\ lg = filter (fresh (last_calls hist)) (qof w).
Proof using below_trans nbelow_trans chk_below sz_leaf sz_bin.
  intros Or H0 H1. pose proof Or as Or'. cbn [map orderly_points] in Or'. destruct Or' as (Or0 & _).
  destruct (history hist Or0 _ _ _ H0) as (I0 & F0). pose proof (m_from_Ok _ _ _ _ _ (proj1 I0) H1) as Fw.
  split; [exact Fw|]. split; [exact F0|]. destruct (m_from_step hist w t T I0 F0 Fw Or) as (T2 & H2 & _).
  rewrite H1 in H2. now inv H2.
Qed.
Lemma work_bound w' w hist a b c rs T lgs t T' lg : orderly_points (map as_abs (w' :: w :: hist)) ->
  as_abs w = a ++ c -> as_abs w' = b ++ c ->
  runs m_from (rev (w :: hist)) no_memos = Ok (rs, T, lgs) -> m_from w' T = Ok (t, T', lg) ->
  length lg <= length (marks b) + nrec [] (map fst (marks c)).
Proof using below_trans nbelow_trans chk_below sz_leaf sz_bin.
  intros Or A B H0 H1. destruct (next_run _ _ _ _ _ _ _ _ Or H0 H1) as (Fw' & F & ->). inversion F as [|? ? (tw & Fw) _]; subst.
  cbn [last_calls]. eapply rerun_le; eauto.
Qed.
Lemma work_extend w' w hist b rs T lgs t T' lg : orderly_points (map as_abs (w' :: w :: hist)) ->
  as_abs w' = b ++ as_abs w -> b <> [] -> Forall (fun p => fst p <> u32_max) (marks (as_abs w')) ->
  runs m_from (rev (w :: hist)) no_memos = Ok (rs, T, lgs) -> m_from w' T = Ok (t, T', lg) ->
  length lg = length (marks b) + nrec [] (map fst (marks (as_abs w))).
Proof using below_trans nbelow_trans chk_below sz_leaf sz_bin.
  intros Or B Nb Lv H0 H1. destruct (next_run _ _ _ _ _ _ _ _ Or H0 H1) as (Fw' & F & ->). inversion F as [|? ? (tw & Fw) _]; subst.
  cbn [map orderly_points] in Or. destruct Or as (_ & _ & Nd & _).
  cbn [last_calls]. apply (rerun_eq w w' tw t [] b (as_abs w)); auto.
Qed.
Lemma work_again w' w hist rs T lgs t T' lg : orderly_points (map as_abs (w' :: w :: hist)) -> as_abs w' = as_abs w ->
  runs m_from (rev (w :: hist)) no_memos = Ok (rs, T, lgs) -> m_from w' T = Ok (t, T', lg) -> lg = [].
Proof using below_trans nbelow_trans chk_below sz_leaf sz_bin.
  intros Or Q H0 H1. pose proof (as_abs_inj _ _ _ Q eq_refl). subst w'.
  destruct (next_run _ _ _ _ _ _ _ _ Or H0 H1) as (Fw & _ & ->). apply (rerun_same _ _ Fw).
Qed.
Lemma work_first w t T' lg : orderly_points [as_abs w] -> m_from w no_memos = Ok (t, T', lg) ->
  length lg = length (marks (as_abs w)).
Proof using below_trans nbelow_trans chk_below sz_leaf sz_bin.
  intros Or H. destruct (next_run [] w [] no_memos [] t T' lg Or eq_refl H) as (Fw & _ & ->). cbn [last_calls].
  rewrite filter_all by reflexivity. rewrite pts_marks, map_length.
  pose proof (Permutation_length (qof_points w t Fw)) as Z. rewrite map_length in Z. exact Z.
Qed.
Lemma work_unnamed w tab t T' lg : (forall p, In p (marks (as_abs w)) -> snd p = None) -> sound pure tab ->
  m_from w tab = Ok (t, T', lg) -> length lg = length (marks (as_abs w)) /\ sound pure T'.
Proof using below_trans nbelow_trans chk_below sz_leaf sz_bin.
  intros Nn S H. pose proof (m_from_Ok _ _ _ _ _ S H) as Fw.
  pose proof (Permutation_length (qof_points w t Fw)) as Z. rewrite map_length in Z.
  pose proof (from_pure w t Fw) as Pu. pose proof (qof_names w t Fw) as Pn.
  rewrite pts_marks, map_length. unfold MemoFrom.m_from in H. unfold qof in *. destruct (top_key w) as [k|] eqn:T.
  - destruct Pu as (r & Pk & _). pose proof (top_mk lf w k T) as Lk.
    assert (N : forall k', In k' (all_calls k) -> knm k' = None).
    { intros k' I. pose proof (Permutation_in _ Pn (in_map k_name _ _ I)) as J. unfold pnames in J.
      apply in_map_iff in J. destruct J as (p & Ep & Ip). specialize (Nn p Ip). unfold knm. now rewrite <- Ep, Nn. }
    assert (Nk : knm k = None).
    { apply N. destruct (calls_of k r Pk) as (? & ? & ? & _ & _ & _ & _ & _ & ->). now left. }
    rewrite Nk in H. cbn [memo_opt] in H.
    rewrite (m_two_unnamed (from_same eqE eqD) knm first cont mk mr mk_pos (first_l _ _ _) (first_r _ _ _) (cont_l _ _) (cont_r _ _)
      (Datatypes.S (Datatypes.S (archives w))) k r tab) in H; [|lia|exact Pk|exact N].
    cbn [bind] in H. apply bind_Ok in H. destruct H as (t' & _ & H). inv H. auto.
  - apply bind_Ok in H. destruct H as (t' & _ & H). inv H. auto.
Qed.
End Side.

(** ** The two sides *)
Section Both.
Context {E M : Type} {RM : RazMeta E M} (eqE : forall x y : E, {x = y} + {x <> y})
  (eqD : forall x y : tree_data E M, {x = y} + {x <> y}).
Notation rtree := (tree (tree_data E M)).
Notation atoms := (list (atom E level)).
Implicit Types (w s : astack E level).

Fixpoint tsz (t : rtree) : nat :=
  match t with
  | Node _ _ d l r =>
      match d with Leaf v => length v | _ => 1 end
      + match l with None => 0 | Some t1 => tsz t1 end + match r with None => 0 | Some t2 => tsz t2 end
  end.
Lemma bin_size (a : rtree) l n b t : bin a l n b = Ok t -> tsz t = S (tsz a + tsz b).
Proof.
  unfold bin, td_rebuild. intros H. apply bind_Ok in H. destruct H as (d & Hd & H).
  apply bind_Ok in Hd. destruct Hd as (ml & _ & Hd). apply bind_Ok in Hd. destruct Hd as (mr' & _ & Hd). inv Hd.
  rewrite tree_new_eq in H. cbn [unwrap] in H. inv H. cbn [tsz]. lia.
Qed.

(** *** Tail *)
Notation t_from := (from tail_below tail_chk tail_lf tail_mkb).
Notation t_mfrom := (m_from eqE eqD tail_below tail_chk tail_lf tail_mkb).
Lemma tb_trans a b c : tail_below a b = true -> tail_below b c = true -> tail_below a c = true.
Proof. unfold tail_below. rewrite !N.ltb_lt. lia. Qed.
Lemma tb_ntrans a b c : tail_below a b = false -> tail_below b c = false -> tail_below a c = false.
Proof. unfold tail_below. rewrite !N.ltb_ge. lia. Qed.
Lemma tc_below (acc : rtree) fl mx : tail_chk acc fl mx = Ok tt -> tail_below fl mx = true.
Proof. unfold tail_chk, tail_below. destruct (t_level acc <=? fl)%N, (fl <? mx)%N; cbn; auto; discriminate. Qed.
Lemma tl_size (v : list E) : tsz (tail_lf v) = length v.
Proof. cbn. lia. Qed.
Lemma tm_size (a : rtree) l n b t : tail_mkb a l n b = Ok t -> tsz t = S (tsz a + tsz b).
Proof. apply bin_size. Qed.

Fixpoint sr (l : list level) : nat :=
  match l with [] => 0 | m :: r => (if forallb (fun q => (q <=? m)%N) r then 1 else 0) + sr r end.
Lemma seen_right_sr (l : atoms) : seen_from_right l = sr (map fst (marks l)).
Proof.
  induction l as [|[e|m n] l IH]; cbn [seen_from_right marks map sr fst]; [reflexivity|exact IH|]. rewrite IH. f_equal.
  replace (forallb (fun q => (q <=? m)%N) (map fst (marks l))) with (forallb (fun p => (fst p <=? m)%N) (marks l)); [reflexivity|].
  clear. induction (marks l) as [|p q IH]; [reflexivity|]. cbn [forallb map]. now rewrite IH.
Qed.
Lemma sr_nrec ms : forall above, sr (rev ms ++ above) = nrec tail_below above ms + sr above.
Proof.
  induction ms as [|m ms IH]; intros above; [reflexivity|]. cbn [rev nrec]. rewrite <- app_assoc. cbn [app].
  rewrite IH. cbn [sr].
  assert (Q : forallb (fun q => negb (tail_below m q)) above = forallb (fun q => (q <=? m)%N) above).
  { clear. induction above as [|p q IH]; [reflexivity|]. cbn [forallb]. rewrite IH. f_equal. symmetry. apply N.leb_antisym. }
  rewrite Q. lia.
Qed.
Lemma tail_records (c : atoms) : seen_from_right (rev c) = nrec tail_below [] (map fst (marks c)).
Proof.
  rewrite seen_right_sr, marks_rev, map_rev, <- (app_nil_r (rev _)), sr_nrec. cbn. lia.
Qed.

Lemma tail_bound w' w hist a b c rs T lgs t T' lg : orderly_points (map as_abs (w' :: w :: hist)) ->
  as_abs w = a ++ c -> as_abs w' = b ++ c ->
  runs (m_from_at_tail eqE eqD) (rev (w :: hist)) no_memos = Ok (rs, T, lgs) ->
  m_from_at_tail eqE eqD w' T = Ok (t, T', lg) ->
  length lg <= length (marks b) + seen_from_right (rev c).
Proof.
  rewrite (runs_ext _ _ (m_from_tail_eq eqE eqD)), m_from_tail_eq, tail_records.
  exact (work_bound eqE eqD _ _ _ _ tsz tb_trans tb_ntrans tc_below tl_size tm_size w' w hist a b c rs T lgs t T' lg).
Qed.
Lemma tail_extend w' w hist b rs T lgs t T' lg : orderly_points (map as_abs (w' :: w :: hist)) ->
  as_abs w' = b ++ as_abs w -> b <> [] ->
  runs (m_from_at_tail eqE eqD) (rev (w :: hist)) no_memos = Ok (rs, T, lgs) ->
  m_from_at_tail eqE eqD w' T = Ok (t, T', lg) ->
  length lg = length (marks b) + seen_from_right (rev (as_abs w)).
Proof.
  rewrite (runs_ext _ _ (m_from_tail_eq eqE eqD)), m_from_tail_eq, tail_records. intros Or B Nb H0 H1.
  refine (work_extend eqE eqD _ _ _ _ tsz tb_trans tb_ntrans tc_below tl_size tm_size w' w hist b rs T lgs t T' lg Or B Nb _ H0 H1).
  destruct (next_run eqE eqD _ _ _ _ tsz tb_trans tb_ntrans tc_below tl_size tm_size _ _ _ _ _ _ _ _ Or H0 H1) as (Fw & _ & _).
  (* a point of the largest level would not get past the assertion *)
  rewrite pts_marks. apply Forall_forall. intros p Ip. apply in_map_iff in Ip. destruct Ip as (q & <- & Iq).
  apply (Permutation_in _ (Permutation_sym (qof_points _ _ _ _ tsz tb_trans tc_below tl_size tm_size w' t Fw))) in Iq.
  apply in_map_iff in Iq. destruct Iq as (k & <- & Ik). cbn [kpt fst].
  assert (X : forall k, In k (qof tail_below tail_chk tail_lf tail_mkb w') -> (k_level k < k_max k)%N).
  { intros k0 I0. destruct (qof_pure _ _ _ _ w' t Fw k0 I0) as (r & P).
    destruct (calls_seg _ _ _ _ tsz tb_trans tc_below tl_size tm_size (mk k0) k0 r (le_n _) P) as (Bl & _).
    now apply N.ltb_lt in Bl. }
  assert (Y : forall d k, length (pts w') - length (pts (k_stack k)) <= d -> In k (qof tail_below tail_chk tail_lf tail_mkb w') ->
    (k_level k < u32_max)%N).
  { induction d as [|d IHd]; intros k0 Ld I0; pose proof (X k0 I0) as L0;
      destruct (qof_origin _ _ _ _ tsz tb_trans tb_ntrans tc_below tl_size tm_size w' t Fw k0 I0)
        as (pre & Pk & [(Mx & _ & _)|(pre1 & k1 & pre2 & ks & -> & I1 & _ & _ & Mx & _)]);
      try (rewrite Mx in L0; exact L0).
    - rewrite Pk, app_length in Ld. cbn [length] in Ld. lia.
    - apply (N.lt_trans _ (k_level k1)); [rewrite <- Mx; exact L0|]. apply IHd; [|exact I1].
      rewrite <- app_assoc in Pk. cbn [app] in Pk. pose proof (pts_split _ _ _ _ Pk) as Q. cbn [kpt snd] in Q.
      rewrite <- Q, app_length. cbn [length]. lia. }
  intros Z. specialize (Y _ k (le_n _) Ik). rewrite Z in Y. revert Y. apply N.lt_irrefl.
Qed.
Lemma tail_again w' w hist rs T lgs t T' lg : orderly_points (map as_abs (w' :: w :: hist)) -> as_abs w' = as_abs w ->
  runs (m_from_at_tail eqE eqD) (rev (w :: hist)) no_memos = Ok (rs, T, lgs) ->
  m_from_at_tail eqE eqD w' T = Ok (t, T', lg) -> lg = [].
Proof.
  rewrite (runs_ext _ _ (m_from_tail_eq eqE eqD)), m_from_tail_eq.
  exact (work_again eqE eqD _ _ _ _ tsz tb_trans tb_ntrans tc_below tl_size tm_size w' w hist rs T lgs t T' lg).
Qed.
Lemma tail_first w t T' lg : orderly_points [as_abs w] -> m_from_at_tail eqE eqD w no_memos = Ok (t, T', lg) ->
  length lg = length (marks (as_abs w)).
Proof.
  rewrite m_from_tail_eq. exact (work_first eqE eqD _ _ _ _ tsz tb_trans tb_ntrans tc_below tl_size tm_size w t T' lg).
Qed.

(** *** Head *)
Notation h_from := (from head_below head_chk head_lf head_mkb).
Notation h_mfrom := (m_from eqE eqD head_below head_chk head_lf head_mkb).
Lemma hb_trans a b c : head_below a b = true -> head_below b c = true -> head_below a c = true.
Proof. unfold head_below. rewrite !N.leb_le. lia. Qed.
Lemma hb_ntrans a b c : head_below a b = false -> head_below b c = false -> head_below a c = false.
Proof. unfold head_below. rewrite !N.leb_gt. lia. Qed.
Lemma hc_below (acc : rtree) fl mx : head_chk acc fl mx = Ok tt -> head_below fl mx = true.
Proof. unfold head_chk, head_below. destruct (t_level acc <? fl)%N, (fl <=? mx)%N; cbn; auto; discriminate. Qed.
Lemma hl_size (v : list E) : tsz (head_lf v) = length v.
Proof. cbn. rewrite rev_length. lia. Qed.
Lemma hm_size (a : rtree) l n b t : head_mkb a l n b = Ok t -> tsz t = S (tsz a + tsz b).
Proof. intros H. apply bin_size in H. lia. Qed.

Lemma seen_left_nrec (l : atoms) : forall top above,
  (forall m, In m (map fst (marks l)) -> forallb (fun q => negb (head_below m q)) above = (top <? m)%N) ->
  seen_from_left top l = nrec head_below above (map fst (marks l)).
Proof.
  induction l as [|[e|m n] l IH]; intros top above H; cbn [seen_from_left marks map nrec fst]; [reflexivity|now apply IH|].
  rewrite (H m (or_introl eq_refl)). destruct (top <? m)%N eqn:L.
  - cbn [Nat.add]. f_equal. apply IH. intros m' I. cbn [forallb]. rewrite (H m' (or_intror I)).
    apply N.ltb_lt in L. unfold head_below. rewrite <- N.ltb_antisym. destruct (m <? m')%N eqn:L1; [|reflexivity].
    apply N.ltb_lt in L1. symmetry. rewrite andb_true_l. symmetry. apply N.ltb_lt. lia.
  - cbn [Nat.add]. apply IH. intros m' I. cbn [forallb]. rewrite (H m' (or_intror I)).
    apply N.ltb_ge in L. unfold head_below. rewrite <- N.ltb_antisym. destruct (top <? m')%N eqn:L1; [|apply andb_false_r].
    apply N.ltb_lt in L1. rewrite andb_true_r. apply N.ltb_lt. lia.
Qed.
Lemma head_records (c : atoms) : (forall m, In m (map fst (marks c)) -> (1 <= m)%N) ->
  seen_from_left 0%N c = nrec head_below [] (map fst (marks c)).
Proof. intros H. apply seen_left_nrec. intros m I. cbn. symmetry. apply N.ltb_lt. specialize (H m I). lia. Qed.
Lemma head_levels w t : h_from w = Ok t -> forall m, In m (map fst (marks (as_abs w))) -> (1 <= m)%N.
Proof.
  intros Fw m I. rewrite pts_marks, map_map in I. apply in_map_iff in I. destruct I as (q & <- & Iq).
  apply (Permutation_in _ (Permutation_sym (qof_points _ _ _ _ tsz hb_trans hc_below hl_size hm_size w t Fw))) in Iq.
  apply in_map_iff in Iq. destruct Iq as (k & <- & Ik). cbn [kpt fst].
  destruct (qof_pure _ _ _ _ w t Fw k Ik) as (r & P).
  destruct (calls_of _ _ _ _ k r P) as (a & _ & _ & Fi & _). apply first_cases in Fi. destruct Fi as (Ck & _).
  unfold head_chk in Ck. destruct (t_level (k_acc k) <? k_level k)%N eqn:L; cbn in Ck; [|discriminate].
  apply N.ltb_lt in L. lia.
Qed.
Lemma levels_suffix w t (b c : atoms) : h_from w = Ok t -> as_abs w = b ++ c ->
  forall m, In m (map fst (marks c)) -> (1 <= m)%N.
Proof.
  intros Fw A m I. apply (head_levels w t Fw). rewrite A, marks_app, map_app. apply in_app_iff. now right.
Qed.

Lemma head_bound w' w hist a b c rs T lgs t T' lg : orderly_points (map as_abs (w' :: w :: hist)) ->
  as_abs w = a ++ c -> as_abs w' = b ++ c ->
  runs (m_from_at_head eqE eqD) (rev (w :: hist)) no_memos = Ok (rs, T, lgs) ->
  m_from_at_head eqE eqD w' T = Ok (t, T', lg) ->
  length lg <= length (marks b) + seen_from_left 0%N c.
Proof.
  rewrite (runs_ext _ _ (m_from_head_eq eqE eqD)), m_from_head_eq. intros Or A B H0 H1.
  destruct (next_run eqE eqD _ _ _ _ tsz hb_trans hb_ntrans hc_below hl_size hm_size _ _ _ _ _ _ _ _ Or H0 H1) as (Fw & _ & _).
  rewrite (head_records c (levels_suffix w' t b c Fw B)).
  exact (work_bound eqE eqD _ _ _ _ tsz hb_trans hb_ntrans hc_below hl_size hm_size w' w hist a b c rs T lgs t T' lg Or A B H0 H1).
Qed.
Lemma head_extend w' w hist b rs T lgs t T' lg : orderly_points (map as_abs (w' :: w :: hist)) ->
  as_abs w' = b ++ as_abs w -> b <> [] -> (forall p, In p (marks (as_abs w')) -> fst p <> u32_max) ->
  runs (m_from_at_head eqE eqD) (rev (w :: hist)) no_memos = Ok (rs, T, lgs) ->
  m_from_at_head eqE eqD w' T = Ok (t, T', lg) ->
  length lg = length (marks b) + seen_from_left 0%N (as_abs w).
Proof.
  rewrite (runs_ext _ _ (m_from_head_eq eqE eqD)), m_from_head_eq. intros Or B Nb Lv H0 H1.
  destruct (next_run eqE eqD _ _ _ _ tsz hb_trans hb_ntrans hc_below hl_size hm_size _ _ _ _ _ _ _ _ Or H0 H1) as (Fw & _ & _).
  rewrite (head_records (as_abs w) (levels_suffix w' t b _ Fw B)).
  refine (work_extend eqE eqD _ _ _ _ tsz hb_trans hb_ntrans hc_below hl_size hm_size w' w hist b rs T lgs t T' lg Or B Nb _ H0 H1).
  apply Forall_forall. exact Lv.
Qed.
Lemma head_again w' w hist rs T lgs t T' lg : orderly_points (map as_abs (w' :: w :: hist)) -> as_abs w' = as_abs w ->
  runs (m_from_at_head eqE eqD) (rev (w :: hist)) no_memos = Ok (rs, T, lgs) ->
  m_from_at_head eqE eqD w' T = Ok (t, T', lg) -> lg = [].
Proof.
  rewrite (runs_ext _ _ (m_from_head_eq eqE eqD)), m_from_head_eq.
  exact (work_again eqE eqD _ _ _ _ tsz hb_trans hb_ntrans hc_below hl_size hm_size w' w hist rs T lgs t T' lg).
Qed.
Lemma head_first w t T' lg : orderly_points [as_abs w] -> m_from_at_head eqE eqD w no_memos = Ok (t, T', lg) ->
  length lg = length (marks (as_abs w)).
Proof.
  rewrite m_from_head_eq. exact (work_first eqE eqD _ _ _ _ tsz hb_trans hb_ntrans hc_below hl_size hm_size w t T' lg).
Qed.

(** *** Without names *)
Lemma tail_unnamed ss w rs T lgs t T' lg : (forall p, In p (marks (as_abs w)) -> snd p = None) ->
  runs (m_from_at_tail eqE eqD) ss no_memos = Ok (rs, T, lgs) -> m_from_at_tail eqE eqD w T = Ok (t, T', lg) ->
  length lg = length (marks (as_abs w)).
Proof.
  rewrite (runs_ext _ _ (m_from_tail_eq eqE eqD)), m_from_tail_eq. intros Nn H0 H1.
  assert (S : sound (pure (first tail_below tail_chk tail_lf) (cont tail_below tail_mkb) mk) T).
  { eapply (runs_sound t_mfrom _ t_from); [intros s tab; apply m_from_sound|apply no_memos_sound|exact H0]. }
  now destruct (work_unnamed eqE eqD _ _ _ _ tsz tb_trans tb_ntrans tc_below tl_size tm_size w T t T' lg Nn S H1).
Qed.
Lemma head_unnamed ss w rs T lgs t T' lg : (forall p, In p (marks (as_abs w)) -> snd p = None) ->
  runs (m_from_at_head eqE eqD) ss no_memos = Ok (rs, T, lgs) -> m_from_at_head eqE eqD w T = Ok (t, T', lg) ->
  length lg = length (marks (as_abs w)).
Proof.
  rewrite (runs_ext _ _ (m_from_head_eq eqE eqD)), m_from_head_eq. intros Nn H0 H1.
  assert (S : sound (pure (first head_below head_chk head_lf) (cont head_below head_mkb) mk) T).
  { eapply (runs_sound h_mfrom _ h_from); [intros s tab; apply m_from_sound|apply no_memos_sound|exact H0]. }
  now destruct (work_unnamed eqE eqD _ _ _ _ tsz hb_trans hb_ntrans hc_below hl_size hm_size w T t T' lg Nn S H1).
Qed.
End Both.
