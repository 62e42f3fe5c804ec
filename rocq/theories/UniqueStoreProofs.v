(** * Proofs about unique_elms over a store. *)

From Verif Require Import Base Spec SpecRaz StoreModel RazMetaModel RazModel TreeSpec RazView RazScripts RazReach
  RazOps RazFacts SkiplistModel MapScripts SkiplistProofs ExampleModel ExampleProofs SkipStoreModel SkipStoreSpec
  SkipStoreProofs UniqueStoreModel.

Section Unique.
Context {E M : Type} {RM : RazMeta E M}.
Context (keqb : E -> E -> bool) (my_hash : E -> N) (debug : bool) (keqb_spec : forall a b, keqb a b = true <-> a = b)
  (pathlen : nat) (Hp : 0 < pathlen) (Hd : debug = true -> pathlen < 64) (q : list name).
Notation atoms := (list (atom E level)).
Notation cells := (cells E unit).
Notation linked := (linked (V := unit) keqb my_hash debug).

(** The cells written so far: of names used up, or of the current one with lower numbers. *)
Definition upto (used : list name) (n : name) (c : N) (a : loc) : Prop :=
  exists m d, a = (q, NPair m (NNum d)) /\ (In m used \/ m = n /\ (d < c)%N).

Definition state_ok (used : list name) (h : @history E unit) (st : cells) (s : sskiplist) : Prop :=
  ~ In (s_name s) used /\
  exists W : loc -> Prop, (forall a, W a -> upto used (s_name s) (s_cntr s) a) /\ linked st W (s, h, (s_name s, s_cntr s)).

Lemma put_ok used h st s e : state_ok used h st s ->
  exists st' s', ssk_put keqb my_hash debug q st s e tt = Ok (st', s') /\ s_name s' = s_name s /\
    state_ok used ((e, Some tt) :: h) st' s'.
Proof.
  intros (Nu & W & HW & Lk). unfold ssk_put.
  destruct (ext_linked keqb my_hash debug keqb_spec st W s h _ q e (Some tt) Lk) as (p & s' & Ex & Lk').
  { intros Wn. destruct (HW _ Wn) as (m & d & E1 & [I|[_ Hlt]]); unfold next_cell in E1; inversion E1; subst; [contradiction|lia]. }
  rewrite Ex. cbn [bind]. eexists _, s'. split; [reflexivity|].
  destruct Lk' as (En & Lk''). cbn [fst snd] in En. inversion En as [[E1 E2]].
  split; [reflexivity|]. split; [now rewrite <- E1|].
  eexists. split; [|split; [reflexivity|exact Lk'']].
  intros a [Wa| ->].
  - destruct (HW a Wa) as (m & d & Ea & H). exists m, d. split; [exact Ea|]. rewrite <- E1, <- E2.
    destruct H as [H|[H1 H2]]; [now left|right]. split; [exact H1|lia].
  - exists (s_name s), (s_cntr s). split; [reflexivity|]. rewrite <- E1, <- E2. right. split; [reflexivity|lia].
Qed.

Lemma archive_ok used h st s n : ~ In n used -> n <> s_name s -> state_ok used h st s ->
  state_ok (s_name s :: used) h st (ssk_archive s n).
Proof.
  intros Nn Nd (Nu & W & HW & Lk). split; cbn [ssk_archive s_name s_cntr].
  - intros [|]; [congruence|contradiction].
  - exists W. split.
    + intros a Wa. destruct (HW a Wa) as (m & d & Ea & H). exists m, d. split; [exact Ea|]. left.
      destruct H as [H|[H _]]; [now right|left]. now symmetry.
    + destruct Lk as (_ & L & t & A & B & Hr & Rp). split; [reflexivity|].
      exists L, (sk_archive t n). split; [exact A|]. split; [exact B|]. split; [|now apply rep_archive].
      destruct Hr as (R1 & R2 & R3 & R4). split; [exact R1|]. split; [reflexivity|]. split; [reflexivity|exact R4].
Qed.

Definition onames (o : option name) : list name := match o with Some n => [n] | None => [] end.

Lemma arch_step prev used h st s : state_ok used h st s -> NoDup (onames prev) ->
  (forall n, In n (onames prev) -> ~ In n used /\ n <> s_name s) ->
  exists used' s', us_archive (Ok (st, s)) prev = Ok (st, s') /\ state_ok used' h st s' /\
    (forall x, In x used' \/ x = s_name s' -> In x used \/ x = s_name s \/ In x (onames prev)).
Proof.
  intros Ok1 _ Hn. destruct prev as [n|]; cbn [us_archive bind].
  - destruct (Hn n (or_introl eq_refl)) as [A B].
    exists (s_name s :: used), (ssk_archive s n). split; [reflexivity|]. split; [now apply archive_ok|].
    intros x [[<-|I]| ->]; auto. cbn. auto.
  - exists used, s. split; [reflexivity|]. split; [exact Ok1|]. intros x [I| ->]; auto.
Qed.

Lemma unique_fold_store (l : atoms) : forall prev used h st s, state_ok used h st s ->
  NoDup (onames prev ++ named_marks l) ->
  (forall n, In n (onames prev ++ named_marks l) -> ~ In n used /\ n <> s_name s) ->
  exists st' s' used', sp_lr_archive (us_put keqb my_hash debug q) us_archive (fun a _ => a) prev (Ok (st, s)) l = Ok (st', s') /\
    state_ok used' (rev (map (fun e => (e, Some tt)) (elts l)) ++ h) st' s'.
Proof.
  induction l as [|[e|m n] l IH]; intros prev used h st s So ND Hn; cbn [sp_lr_archive].
  - cbn [named_marks flat_map] in *. rewrite app_nil_r in *.
    destruct (arch_step prev used h st s So ND Hn) as (u & s' & E1 & So' & _). rewrite E1. eauto.
  - destruct (put_ok used h st s e So) as (st1 & s1 & E1 & En & So1). cbn [us_put bind]. rewrite E1.
    destruct (IH prev used _ st1 s1 So1) as (st' & s' & u & F & So'); [exact ND| |].
    { intros x Hx. rewrite En. now apply Hn. }
    exists st', s', u. split; [exact F|]. cbn. rewrite <- app_assoc. exact So'.
  - change (named_marks (Mark m n :: l)) with (match n with Some n => [n] | None => [] end ++ named_marks l) in *.
    fold (onames n) in *.
    assert (ND1 : NoDup (onames prev)).
    { destruct prev; cbn; [constructor; [intros []|constructor]|constructor]. }
    destruct (arch_step prev used h st s So ND1) as (u & s1 & E1 & So1 & Sub).
    { intros x Hx. apply Hn. apply in_or_app. now left. }
    rewrite E1. cbn.
    destruct (IH n u h st s1 So1) as (st' & s' & u' & F & So').
    { exact (nodup_app_r _ _ ND). }
    { intros x Hx.
      assert (Nx : ~ (In x u \/ x = s_name s1)).
      { intros Ix. destruct (Sub x Ix) as [I|[I|I]].
        - destruct (Hn x) as [A _]; [apply in_or_app; now right|contradiction].
        - destruct (Hn x) as [_ A]; [apply in_or_app; now right|contradiction].
        - destruct prev as [p|]; cbn in I; [|contradiction]. destruct I as [<-|[]]. cbn in ND.
          inversion ND; subst. contradiction. }
      split; [auto|]. intros ->. auto. }
    exists st', s', u'. auto.
Qed.

Theorem unique_store_ok free st (t : raz_tree E M) : tree_reached free t ->
  NoDup (NUnit :: NStr "start" :: named_marks (contents t)) ->
  exists st' s, unique_elms_store keqb my_hash debug pathlen q st t = Ok (st', s) /\
    forall k, ssk_get keqb my_hash debug st' s k = Ok (if existsb (keqb k) (elts (contents t)) then Some tt else None).
Proof.
  intros H ND. unfold unique_elms_store. rewrite fold_lr_archive_atoms by exact (proj1 (tree_reached_good t H)).
  set (s0 := ssk_archive (ssk_emp pathlen NUnit) NUnit).
  assert (So : state_ok [] [] st s0).
  { split; [intros []|]. exists (fun _ => False). split; [intros a []|]. split; [reflexivity|].
    exists pathlen, (sk_archive (sk_emp pathlen NUnit) NUnit). split; [exact Hp|]. split; [exact Hd|].
    split; [|apply rep_archive, rep_emp]. repeat split. constructor. }
  assert (X : exists st' s' u, match contents t with [] => Ok (st, s0)
      | l => sp_lr_archive (us_put keqb my_hash debug q) us_archive (fun a _ => a) (Some (NStr "start")) (Ok (st, s0)) l end = Ok (st', s') /\
      state_ok u (rev (map (fun e => (e, Some tt)) (elts (contents t))) ++ []) st' s').
  { destruct (contents t) as [|a l]; [eauto|]. inversion ND as [|? ? Nu ND']; subst.
    apply (unique_fold_store (a :: l) _ [] [] st s0 So); [exact ND'|].
    intros n Hn. split; [intros []|]. intros ->. apply Nu, Hn. }
  destruct X as (st' & s' & u & F & (_ & W & _ & Lk)). exists st', s'. split; [exact F|]. intros k.
  destruct Lk as (_ & L & t' & A & B & Hr & Rp). rewrite app_nil_r in Rp.
  pose proof (get_sim keqb my_hash debug st' W s' t' k Hr) as S.
  rewrite (sk_get_spec keqb my_hash debug L A B _ _ k Rp), bound_units in S.
  destruct (ssk_get keqb my_hash debug st' s' k); cbn in S; try contradiction. now subst.
Qed.

End Unique.
