(** * Raz proofs, part 5: folds, map, join, from_vec and the conversions of stacks. *)

From Verif Require Import Base BaseFacts Spec SpecRaz StackModel AStackModel StackProofs
  LevelTreeModel TreeCursorModel RazMetaModel RazModel TreeSpec TreeProofs CursorProofs RazView
  RazProofs RazUnfocus RazFocus.

Section Folds.
Context {E M : Type} {RM : RazMeta E M}.
Notation rtree := (tree (tree_data E M)).
Notation atoms := (list (atom E level)).
Notation branch_of lv nm ml mr tl tr := (Node lv nm (Branch ml mr) (Some tl) (Some tr)).

Lemma fold_up_meta_ok {R} (f : option R -> tree_data E M -> level -> option name -> option R -> res R)
    (P : atoms -> R -> Prop) :
  (forall v, v <> [] -> exists x, f None (Leaf v) 0%N None None = Ok x /\ P (map Elt v) x) ->
  (forall lv nm ml mr a b x y, (1 <= lv)%N -> P a x -> P b y ->
     exists z, f (Some x) (Branch ml mr) lv nm (Some y) = Ok z /\ P (a ++ Mark lv nm :: b) z) ->
  forall t : rtree, tree_ok t -> exists x, t_fold_up_meta f t = Ok x /\ P (tree_atoms (Some t)) x.
Proof.
  intros HL HB. induction t as [lv nm d l r Hl Hr] using tree_induction. intros O.
  destruct (tree_ok_case _ O) as [(v & X & Hv)|(lv' & nm' & ml & mr & tl & tr & X & Lv & Ml & Mr & Kl & Kr)]; inv X.
  - change (Node 0%N None (Leaf v) None None) with (@leaf_of E M v). rewrite tree_atoms_leaf.
    apply HL, Hv.
  - destruct (Hl Kl) as (x & Fx & Px). destruct (Hr Kr) as (y & Fy & Py).
    rewrite tree_atoms_branch. cbn [t_fold_up_meta]. rewrite Fx. cbn [bind]. rewrite Fy. cbn [bind].
    apply HB; auto.
Qed.

(** ** fold_up *)
Lemma fold_left_assoc {R} (f : R -> R -> R) : (forall a b c, f (f a b) c = f a (f b c)) ->
  forall l a b, fold_left f l (f a b) = f a (fold_left f l b).
Proof. intros A. induction l as [|x l IH]; intros a b; simpl; auto. now rewrite A, IH. Qed.

Lemma reduce_app {R} (f : R -> R -> R) a b x y : (forall a b c, f (f a b) c = f a (f b c)) ->
  reduce f a = Some x -> reduce f b = Some y -> reduce f (a ++ b) = Some (f x y).
Proof.
  intros A. destruct a as [|a1 a]; [discriminate|]. destruct b as [|b1 b]; [discriminate|].
  simpl. intros X Y. injection X as <-. injection Y as <-.
  rewrite fold_left_app. simpl. now rewrite fold_left_assoc.
Qed.

Theorem fold_up_assoc {R} (init : E -> R) (bin : R -> R -> R) (t : raz_tree E M) :
  (forall a b c, bin (bin a b) c = bin a (bin b c)) -> otree_ok (rt_tree t) ->
  rt_fold_up t init bin = Ok (reduce bin (map init (elts (contents t)))).
Proof.
  intros A O. unfold rt_fold_up, contents, t_fold_up. destruct (rt_tree t) as [tr|]; [|reflexivity].
  destruct (fold_up_meta_ok (fun l c _ _ r =>
           match c with
           | Leaf v =>
               match map init v with
               | [] => Panic "leaf with empty vec"
               | first :: rest => Ok (fold_left bin rest first)
               end
           | _ =>
               match l, r with
               | None, None => Panic "branch with no data"
               | Some x, None => Ok x
               | None, Some x => Ok x
               | Some x1, Some x2 => Ok (bin x1 x2)
               end
           end) (fun a x => reduce bin (map init (elts a)) = Some x)) with (t := tr) as (x & F & P); auto.
  - intros v Hv. rewrite elts_map_Elt. destruct v as [|e v]; [congruence|]. simpl. eauto.
  - intros lv nm ml mr a b x y _ Ha Hb. eexists. split; [reflexivity|].
    rewrite elts_app, map_app. simpl. now apply reduce_app.
  - rewrite F. cbn [bind]. now rewrite P.
Qed.

(** ** fold_up_gauged, fold_up_nl *)
Theorem fold_up_gauged_ok {R} (init : list E -> res R) (bin : R -> level -> option name -> R -> res R)
    (P : atoms -> R -> Prop) (t : raz_tree E M) :
  (forall v, v <> [] -> exists x, init v = Ok x /\ P (map Elt v) x) ->
  (forall lv nm a b x y, (1 <= lv)%N -> P a x -> P b y ->
     exists z, bin x lv nm y = Ok z /\ P (a ++ Mark lv nm :: b) z) ->
  otree_ok (rt_tree t) -> contents t <> [] ->
  exists x, rt_fold_up_gauged t init bin = Ok (Some x) /\ P (contents t) x.
Proof.
  intros HL HB O Ne. unfold rt_fold_up_gauged, contents in *.
  destruct (rt_tree t) as [tr|]; [|now elim Ne].
  destruct (fold_up_meta_ok (fun l c lv n r =>
           match c with
           | Leaf v => init v
           | _ =>
               match l, r with
               | None, None => Panic "branch with no data"
               | Some x, None => Ok x
               | None, Some x => Ok x
               | Some x1, Some x2 => bin x1 lv n x2
               end
           end) P) with (t := tr) as (x & F & Px); auto.
  rewrite F. cbn [bind]. eauto.
Qed.

Theorem fold_up_nl_ok {R} (init : E -> R) (bin : R -> R -> R) (binnl : R -> level -> option name -> R -> R)
    (P : atoms -> R -> Prop) (t : raz_tree E M) :
  (forall e, P [Elt e] (init e)) ->
  (forall v x e, P (map Elt v) x -> P (map Elt (v ++ [e])) (bin x (init e))) ->
  (forall lv nm a b x y, (1 <= lv)%N -> P a x -> P b y -> P (a ++ Mark lv nm :: b) (binnl x lv nm y)) ->
  otree_ok (rt_tree t) -> contents t <> [] ->
  exists x, rt_fold_up_nl t init bin binnl = Ok (Some x) /\ P (contents t) x.
Proof.
  intros H1 H2 HB O Ne. unfold rt_fold_up_nl, contents in *.
  destruct (rt_tree t) as [tr|]; [|now elim Ne].
  destruct (fold_up_meta_ok (fun l c lv n r =>
           match c with
           | Leaf v =>
               match map init v with
               | [] => Panic "leaf with empty vec"
               | first :: rest => Ok (fold_left bin rest first)
               end
           | _ =>
               match l, r with
               | None, None => Panic "branch with no data"
               | Some x, None => Ok x
               | None, Some x => Ok x
               | Some x1, Some x2 => Ok (binnl x1 lv n x2)
               end
           end) P) with (t := tr) as (x & F & Px); auto.
  - intros v Hv. destruct v as [|e v]; [congruence|]. simpl. eexists. split; [reflexivity|].
    assert (G : forall w u x, P (map Elt u) x -> P (map Elt (u ++ w)) (fold_left bin (map init w) x)).
    { induction w as [|e' w IH]; intros u x Hx; simpl; [now rewrite app_nil_r|].
      replace (u ++ e' :: w) with ((u ++ [e']) ++ w) by (rewrite <- app_assoc; reflexivity). auto. }
    apply (G v [e]). apply H1.
  - intros. eauto.
  - rewrite F. cbn [bind]. eauto.
Qed.

Lemma fold_up_gauged_empty {R} (init : list E -> res R) bin (t : raz_tree E M) :
  rt_tree t = None -> rt_fold_up_gauged t init bin = Ok None.
Proof. intros H. unfold rt_fold_up_gauged. now rewrite H. Qed.
Lemma fold_up_nl_empty {R} (init : E -> R) bin binnl (t : raz_tree E M) :
  rt_tree t = None -> rt_fold_up_nl t init bin binnl = Ok None.
Proof. intros H. unfold rt_fold_up_nl. now rewrite H. Qed.

(** ** fold_lr *)
Lemma visit_Elt {R} (bin : R -> E -> R) (meta : R -> level * option name -> R) v acc :
  fold_left (sp_visit bin meta) (map Elt v) acc = fold_left bin v acc.
Proof. revert acc. induction v; intros acc; simpl; auto. Qed.

Theorem fold_lr_meta_atoms {R} (init : R) (bin : R -> E -> R) (meta : R -> level * option name -> R)
    (t : raz_tree E M) : otree_ok (rt_tree t) ->
  rt_fold_lr_meta t init bin meta = fold_left (sp_visit bin meta) (contents t) init.
Proof.
  unfold rt_fold_lr_meta, contents. destruct (rt_tree t) as [tr|]; [|reflexivity].
  cbn [otree_ok otwf]. generalize (Some (NStr "start")). revert init.
  induction tr as [lv nm d l r Hl Hr] using tree_induction. intros init st O.
  destruct (tree_ok_case _ O) as [(v & X & Hv)|(lv' & nm' & ml & mr & tl & tr & X & Lv & Ml & Mr & Kl & Kr)]; inv X.
  - change (Node 0%N None (Leaf v) None None) with (@leaf_of E M v). rewrite tree_atoms_leaf, visit_Elt. reflexivity.
  - rewrite tree_atoms_branch, fold_left_app. cbn [t_fold_lr_meta]. cbv zeta beta.
    simpl in Hl, Hr. rewrite Hl by exact Kl. rewrite Hr by exact Kr. reflexivity.
Qed.

Theorem fold_lr_elts {R} (init : R) (bin : R -> E -> R) (t : raz_tree E M) : otree_ok (rt_tree t) ->
  rt_fold_lr t init bin = fold_left bin (elts (contents t)) init.
Proof.
  intros O. unfold rt_fold_lr. rewrite fold_lr_meta_atoms by exact O. generalize (contents t). clear.
  intros l. revert init. induction l as [|[e|m n] l IH]; intros init; simpl; auto.
Qed.

Lemma lr_archive_app {R} (bin : R -> E -> R) fin meta (a b : atoms) m n prev acc :
  sp_lr_archive bin fin meta prev acc (a ++ Mark m n :: b) =
  sp_lr_archive bin fin meta n (meta (sp_lr_archive bin fin meta prev acc a) m) b.
Proof. revert prev acc. induction a as [|[e|m' n'] a IH]; intros prev acc; simpl; auto. Qed.
Lemma lr_archive_Elt {R} (bin : R -> E -> R) fin meta v prev acc :
  sp_lr_archive bin fin meta prev acc (map Elt v) = fin (fold_left bin v acc) prev.
Proof. revert acc. induction v as [|e v IH]; intros acc; simpl; auto. Qed.

Theorem fold_lr_archive_atoms {R} (init : R) (bin : R -> E -> R) fin (meta : R -> level -> R)
    (t : raz_tree E M) : otree_ok (rt_tree t) ->
  rt_fold_lr_archive t init bin fin meta =
  match contents t with
  | [] => init
  | l => sp_lr_archive bin fin meta (Some (NStr "start")) init l
  end.
Proof.
  unfold rt_fold_lr_archive, contents. destruct (rt_tree t) as [tr|]; [|reflexivity].
  cbn [otree_ok otwf]. intros O0.
  transitivity (sp_lr_archive bin fin meta (Some (NStr "start")) init (tree_atoms (Some tr))).
  2:{ destruct (tree_atoms_ends _ O0) as (_ & e & l & Z). rewrite Z. now destruct l. }
  generalize (Some (NStr "start")). revert init O0.
  induction tr as [lv nm d l r Hl Hr] using tree_induction. intros init O st.
  destruct (tree_ok_case _ O) as [(v & X & Hv)|(lv' & nm' & ml & mr & tl & tr & X & Lv & Ml & Mr & Kl & Kr)]; inv X.
  - change (Node 0%N None (Leaf v) None None) with (@leaf_of E M v). rewrite tree_atoms_leaf, lr_archive_Elt. reflexivity.
  - rewrite tree_atoms_branch, lr_archive_app. cbn [t_fold_lr_meta]. cbv zeta beta.
    simpl in Hl, Hr. rewrite Hl by exact Kl. rewrite Hr by exact Kr. reflexivity.
Qed.

(** ** join, from_vec, empty *)
Lemma branch_meta_solid lv nm (t : rtree) : t_peek t <> Dummy ->
  exists m, branch_meta lv nm (Some (t_peek t)) = Ok m.
Proof. destruct (t_peek t); [congruence|simpl; eauto|simpl; eauto]. Qed.

Lemma tree_ok_solid (t : rtree) : tree_ok t -> t_peek t <> Dummy.
Proof.
  intros O. destruct (tree_ok_case _ O) as [(v & -> & _)|(lv' & nm' & ml & mr & tl & tr & -> & _)]; discriminate.
Qed.

Lemma leaf_eq v nm : @leaf E M v nm = Ok (Node 0%N nm (Leaf v) None None).
Proof. unfold leaf. now rewrite tree_new_eq. Qed.

Lemma bin_ok (tl tr : rtree) lv nm : t_peek tl <> Dummy -> t_peek tr <> Dummy ->
  exists ml mr, bin tl lv nm tr = Ok (branch_of lv nm ml mr tl tr) /\
    branch_meta lv nm (Some (t_peek tl)) = Ok ml /\ branch_meta lv nm (Some (t_peek tr)) = Ok mr.
Proof.
  intros Hl Hr. destruct (branch_meta_solid lv nm tl Hl) as (ml & Ml).
  destruct (branch_meta_solid lv nm tr Hr) as (mr & Mr).
  exists ml, mr. unfold bin, td_rebuild. rewrite Ml, Mr. cbn [bind]. rewrite tree_new_eq. auto.
Qed.

Lemma branch_ok lv nm ml mr (tl tr : rtree) : (1 <= lv)%N -> tree_ok tl -> tree_ok tr ->
  branch_meta lv nm (Some (t_peek tl)) = Ok ml -> branch_meta lv nm (Some (t_peek tr)) = Ok mr ->
  tree_ok (branch_of lv nm ml mr tl tr).
Proof. intros Lv Kl Kr Ml Mr. split; [|split; assumption]. split; [exact Lv|]. split; [exists tl|exists tr]; auto. Qed.

Lemma mk_solid (t : rtree) : t_peek t <> Dummy ->
  exists m, mk_raz_tree (Some t) = Ok (RazTree m (Some t)) /\ treetop_meta (Some t) = Ok m.
Proof.
  intros H. unfold mk_raz_tree. simpl. destruct (t_peek t); [congruence|simpl; eauto|simpl; eauto].
Qed.

Theorem join_ok (a b : raz_tree E M) lev nm : good a -> good b -> (1 <= lev)%N ->
  contents a <> [] -> contents b <> [] ->
  exists t, rt_join a lev nm b = Ok (Some t) /\ good t /\
    contents t = contents a ++ Mark lev nm :: contents b /\
    (canonical t <-> canonical a /\ canonical b /\ lev_lt (rt_tree a) lev /\ lev_le (rt_tree b) lev).
Proof.
  intros [Oa Ma] [Ob Mb] Lv Na Nb. unfold rt_join, contents, canonical, good in *.
  destruct (rt_tree a) as [ta|] eqn:Ta; [|now elim Na].
  destruct (rt_tree b) as [tb|] eqn:Tb; [|now elim Nb]. simpl in Oa, Ob.
  destruct (bin_ok ta tb lev nm) as (ml & mr & Bn & Ml & Mr); try now apply tree_ok_solid.
  rewrite Bn. cbn [bind].
  assert (O : tree_ok (branch_of lev nm ml mr ta tb)) by now apply branch_ok.
  destruct (mk_solid (branch_of lev nm ml mr ta tb)) as (m & -> & Mt); [discriminate|]. cbn [bind].
  eexists. split; [reflexivity|]. split; [split; [exact O|exact Mt]|]. split; [apply tree_atoms_branch|].
  cbn [rt_tree rt_meta oconventional otree_ok otwf]. split.
  - intros [[_ _] (L1 & L2 & C1 & C2)]. auto 10.
  - intros ([_ C1] & [_ C2] & L1 & L2). split; [split; [exact O|exact Mt]|]. simpl. auto.
Qed.

Theorem join_none (a b : raz_tree E M) lev nm : good a -> good b ->
  contents a = [] \/ contents b = [] -> rt_join a lev nm b = Ok None.
Proof.
  intros [Oa _] [Ob _] H. unfold rt_join, contents in *.
  destruct (rt_tree a) as [ta|] eqn:Ta; [|reflexivity].
  destruct (rt_tree b) as [tb|] eqn:Tb; [|reflexivity]. exfalso.
  destruct H as [H|H].
  - destruct (tree_atoms_ends _ Oa) as (_ & e & l & Z). rewrite Z in H. now destruct l.
  - destruct (tree_atoms_ends _ Ob) as (_ & e & l & Z). rewrite Z in H. now destruct l.
Qed.

Theorem from_vec_ok (v : list E) :
  match v with
  | [] => rt_from_vec (M := M) v = Ok None
  | _ => exists t, rt_from_vec (M := M) v = Ok (Some t) /\ canonical t /\ contents t = map Elt v
  end.
Proof.
  destruct v as [|e v]; [reflexivity|]. unfold rt_from_vec. rewrite leaf_eq. cbn [bind].
  destruct (mk_solid (Node 0%N None (Leaf (e :: v)) None None)) as (m & -> & Mt); [discriminate|].
  cbn [bind]. eexists. split; [reflexivity|]. split; [split; [split; [|exact Mt]|]|].
  - split; [|split; exact I]. simpl. repeat (split; [reflexivity|]). discriminate.
  - simpl. auto.
  - exact (@tree_atoms_leaf E M (e :: v)).
Qed.

Theorem empty_ok : exists t, rt_empty (E := E) (M := M) = Ok t /\ canonical t /\ contents t = [].
Proof. eexists. split; [reflexivity|]. split; [split; [split|]|]; simpl; auto. Qed.

Theorem is_empty_ok (t : raz_tree E M) : good t ->
  rt_is_empty t = match contents t with [] => true | _ => false end /\
  (contents t = [] <-> elts (contents t) = []).
Proof.
  intros [O _]. unfold rt_is_empty, contents. destruct (rt_tree t) as [tr|]; [|split; [reflexivity|split; reflexivity]].
  destruct (tree_atoms_ends _ O) as (_ & e & l & Z). rewrite Z. split; [now destruct l|].
  rewrite elts_app. split; intros H; [now destruct l|]. simpl in H. now destruct (elts l).
Qed.

End Folds.

(** ** map *)
Section Map.
Context {E M R N : Type} {RM : RazMeta E M} {RN : RazMeta R N}.

Lemma map_atoms_app (f : E -> R) (a b : list (atom E level)) :
  sp_map f (a ++ b) = sp_map f a ++ sp_map f b.
Proof. apply map_app. Qed.

Lemma map_atoms_Elt (f : E -> R) v : sp_map (M := level) f (map Elt v) = map Elt (map f v).
Proof. unfold sp_map. rewrite !map_map. reflexivity. Qed.

Lemma t_map_ok (f : E -> R) (t : tree (tree_data E M)) : tree_ok t ->
  exists t', t_map (fun d lev n l r =>
             match d with
             | Leaf v => Ok (Leaf (map f v))
             | _ => td_rebuild (M := N) (peek_op l) Dummy lev n (peek_op r)
             end) t = Ok t' /\
    tree_ok t' /\ tree_atoms (Some t') = sp_map f (tree_atoms (Some t)) /\ skeleton t' = skeleton t.
Proof.
  induction t as [lv nm d l r Hl Hr] using tree_induction. intros O.
  destruct (tree_ok_case _ O) as [(v & X & Hv)|(lv' & nm' & ml & mr & tl & tr & X & Lv & Ml & Mr & Kl & Kr)]; inv X.
  - simpl. eexists. split; [reflexivity|]. split; [|split; [|reflexivity]].
    + split; [|split; exact I]. simpl. repeat (split; [reflexivity|]). destruct v; simpl; congruence.
    + change (Node 0%N None (Leaf v) None None) with (@leaf_of E M v).
      change (Node 0%N None (Leaf (map f v)) None None) with (@leaf_of R N (map f v)).
      now rewrite !tree_atoms_leaf, map_atoms_Elt.
  - cbn [optP] in Hl, Hr. destruct (Hl Kl) as (tl' & Fl & Ol & Al & Sl). destruct (Hr Kr) as (tr' & Fr & Or & Ar & Sr).
    cbn [t_map]. rewrite Fl. cbn [bind]. rewrite Fr. cbn [bind peek_op].
    destruct (branch_meta_solid lv' nm' tl' (tree_ok_solid _ Ol)) as (ml' & Ml').
    destruct (branch_meta_solid lv' nm' tr' (tree_ok_solid _ Or)) as (mr' & Mr').
    unfold td_rebuild, peek_op. cbn [option_map]. rewrite Ml', Mr'. cbn [bind]. rewrite tree_new_eq. cbn [unwrap].
    eexists. split; [reflexivity|]. split; [now apply branch_ok|]. split.
    + rewrite !tree_atoms_branch, map_atoms_app, Al, Ar. reflexivity.
    + simpl. now rewrite Sl, Sr.
Qed.

Lemma skeleton_level {A B} (t : tree A) (t' : tree B) : skeleton t' = skeleton t -> t_level t' = t_level t.
Proof. destruct t, t'; simpl. intros H. now injection H. Qed.

Lemma skeleton_conventional {A B} (t : tree A) : forall t' : tree B,
  skeleton t' = skeleton t -> conventional t -> conventional t'.
Proof.
  induction t as [lv nm d l r Hl Hr] using tree_induction. intros [lv' nm' d' l' r'] S (L1 & L2 & C1 & C2).
  simpl in S. injection S as -> -> Sl Sr. simpl.
  destruct l as [tl|], l' as [tl'|]; simpl in Sl; try discriminate;
  destruct r as [tr|], r' as [tr'|]; simpl in Sr; try discriminate;
  try injection Sl as Sl; try injection Sr as Sr; simpl in *;
  rewrite ?(skeleton_level _ _ Sl), ?(skeleton_level _ _ Sr); auto 10.
Qed.

Theorem map_ok (f : E -> R) (t : raz_tree E M) : good t ->
  exists t', rt_map (N := N) f t = Ok t' /\ good t' /\ (canonical t -> canonical t') /\
    contents t' = sp_map f (contents t) /\
    option_map skeleton (rt_tree t') = option_map skeleton (rt_tree t).
Proof.
  intros [O Mt]. unfold rt_map, contents, canonical, good. destruct (rt_tree t) as [tr|].
  - destruct (t_map_ok f tr O) as (tr' & -> & O' & A' & S'). cbn [bind].
    destruct (mk_solid tr' (tree_ok_solid _ O')) as (m & -> & Mt'). eexists. split; [reflexivity|].
    cbn [rt_tree rt_meta]. split; [split; [exact O'|exact Mt']|]. split; [|split; [exact A'|simpl; congruence]].
    intros [_ C]. split; [split; [exact O'|exact Mt']|]. eapply skeleton_conventional; eauto.
  - eexists. split; [reflexivity|]. simpl. auto 10.
Qed.

End Map.
