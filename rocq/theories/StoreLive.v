(** * Programs that use every name once and clone nothing bring only names not in use. *)

From Verif Require Import Base BaseFacts SpecRaz StackModel AStackModel LevelTreeModel TreeCursorModel RazMetaModel RazModel
  RazScripts TreeSpec TreeProofs StoreModel StoreSpec StoreScripts StoreProofs StoreRaz StoreHistory.

Section Live.
Context {E M : Type} {RM : RazMeta E M} {Nsp : here}.
Notation rdata := (tree_data E M).

Lemma in_use_tree (o : option (tree rdata)) n : in_tree o n -> In n (otnames o).
Proof.
  destruct o as [t|]; unfold in_tree, otnames; cbn [oinorder]; [apply tnames_inorder|intros (? & ? & [])].
Qed.
Lemma in_use_cursor (c : cursor rdata) n : in_cursor c n -> In n (own c).
Proof.
  unfold own, fown. rewrite !in_app_iff. unfold in_cursor. intros [H|[(b & t & I & H)|(b & t & I & H)]].
  - left. now apply in_use_tree.
  - right. left. induction (l_forest c) as [|[b1 t1] f IH]; [contradiction|]. cbn [lown]. rewrite !in_app_iff.
    destruct I as [[= -> ->]|I]; [|auto]. destruct H as [H|H]; [|right; left; now apply in_use_tree].
    left. rewrite H. now left.
  - right. right. induction (r_forest c) as [|[b1 t1] f IH]; [contradiction|]. cbn [rown]. rewrite !in_app_iff.
    destruct I as [[= -> ->]|I]; [|auto]. destruct H as [H|H]; [|right; left; now apply in_use_tree].
    left. rewrite H. now left.
Qed.
Lemma in_use_stack (a : astack E level) n : in_stack a n -> In n (anames a).
Proof.
  assert (G : forall (h : head (level * list E)) m, In (Some m) (point_names h) -> In m (hnames h)).
  { fix IH 1. intros [nm x nx] m. cbn [hnames point_names]. rewrite in_app_iff. intros [->|H].
    - left. now left.
    - right. destruct nx as [h1|]; [now apply IH|contradiction]. }
  intros (h & m & E1 & I & H). unfold anames, snames. rewrite E1, in_app_iff, in_map_iff.
  destruct H as [->|H]; [left; now apply G|]. right. exists m. split; [|now apply G]. injection H as <-. reflexivity.
Qed.
Lemma in_use_value (v : val (raz_tree E M) (raz E M)) n : in_use v n -> In n (vnames v).
Proof.
  destruct v as [t|z|]; simpl; [apply in_use_tree| |auto]. unfold zown. rewrite !in_app_iff.
  intros [H|[H|[H|H]]]; auto using in_use_cursor, in_use_stack.
Qed.

Lemma distinct_run_ok cs : forall p os p', p_run p cs = Ok (os, p') -> existsb is_clone cs = false ->
  (exists st sp, prep st sp p) -> uniq (pnames p ++ flat_map c_names cs) -> names_ok_run p cs.
Proof.
  induction cs as [|c cs IH]; intros p os p' Z Cl (st & sp & P) Un; cbn [p_run names_ok_run flat_map existsb] in *; [exact I|].
  apply bind_Ok in Z. destruct Z as ([o p1] & Z1 & Z). apply bind_Ok in Z. destruct Z as ([os2 p2] & Z2 & Z). inv Z.
  apply orb_false_iff in Cl. destruct Cl as [Cl1 Cl2]. split.
  - split; [|split].
    + apply uniq_NoDup. names.
    + intros n v I1 I2 U. apply in_use_value in U. specialize (Un n). rewrite !cnt_app in Un.
      assert (X : 1 <= cnt n (c_names c)) by (unfold cnt; now apply count_occ_In).
      assert (Y : 1 <= cnt n (pnames p)).
      { unfold cnt. apply count_occ_In. apply in_flat_map. eauto. }
      lia.
    + intros i v n ->. discriminate.
  - rewrite Z1. destruct (step_sim _ _ _ _ Z1) as [k0 K]. destruct (K k0 (le_n _) st sp P) as (sp1 & st1 & _ & R1 & _ & S1).
    + destruct c; simpl in Cl1 |- *; auto. discriminate.
    + names.
    + apply (IH _ _ _ Z2 Cl2); [eauto|names].
Qed.
End Live.

Lemma distinct_names_ok {E M : Type} {RM : RazMeta E M} (cs : list (cmd E Index)) os p' :
  p_run [] cs = Ok (os, p') -> NoDup (flat_map c_names cs) -> existsb is_clone cs = false -> names_ok_run [] cs.
Proof.
  intros H N C. apply (distinct_run_ok (Nsp := []) cs [] os p' H C).
  - exists (fun _ => None), []. constructor.
  - now apply uniq_NoDup.
Qed.
