(** * Proofs about the skiplist over a store. *)

From Verif Require Import Base StoreModel SkiplistModel MapScripts SkiplistProofs SkipStoreModel SkipStoreSpec.

(** ** Lists *)

Lemma update_map {X Y} (f : X -> Y) i x (l : list X) : map f (update i x l) = update i (f x) (map f l).
Proof. revert i; induction l as [|y l IH]; intros [|i]; cbn; f_equal; auto. Qed.

Lemma update_forall {X} (P : X -> Prop) i x (l : list X) : P x -> Forall P l -> Forall P (update i x l).
Proof.
  intros Px F. revert i; induction F as [|y l Py F IH]; intros [|i]; cbn; constructor; auto.
Qed.

Lemma update_same {X} i (x : X) l : nth_error l i = Some x -> update i x l = l.
Proof. revert i; induction l as [|y l IH]; intros [|i] E; cbn in *; try discriminate; f_equal; auto. congruence. Qed.

Lemma nth_forall {X} (P : X -> Prop) i x (l : list X) : Forall P l -> nth_error l i = Some x -> P x.
Proof. intros F E. apply nth_error_In in E. rewrite Forall_forall in F. auto. Qed.

Lemma nodup_app_r {X} (l l' : list X) : NoDup (l ++ l') -> NoDup l'.
Proof. induction l; cbn; auto. intros H. inversion H; auto. Qed.

Inductive orel {A B} (R : A -> B -> Prop) : option A -> option B -> Prop :=
| orel_none : orel R None None
| orel_some a b : R a b -> orel R (Some a) (Some b).

Lemma forall2_nth {A B} (R : A -> B -> Prop) l l' i : Forall2 R l l' -> orel R (nth_error l i) (nth_error l' i).
Proof.
  intros F. revert i; induction F as [|a b l l' H F IH]; intros [|i]; cbn; try constructor; auto.
Qed.

Lemma forall2_len {A B} (R : A -> B -> Prop) l l' : Forall2 R l l' -> length l = length l'.
Proof. induction 1; cbn; auto. Qed.

Lemma forall2_impl {A B} (R R' : A -> B -> Prop) l l' : (forall a b, R a b -> R' a b) -> Forall2 R l l' -> Forall2 R' l l'.
Proof. intros H. induction 1; constructor; auto. Qed.

Lemma forall2_repeat {A B} (R : option A -> option B -> Prop) n : R None None -> Forall2 R (repeat None n) (repeat None n).
Proof. intros H. induction n; cbn; constructor; auto. Qed.

Section Proofs.
Context {K V : Type} (keqb : K -> K -> bool) (my_hash : K -> N) (debug : bool).
Notation path := (path K V).
Notation spath := (spath K V).
Notation cells := (cells K V).

(** ** Cells that stand for a value *)

(** The cell [a] and all below it are in [W] and spell out the path. *)
Inductive rd (st : cells) (W : loc -> Prop) : loc -> path -> Prop :=
| rd_path a h kvs refs ps : W a -> st a = Some (SPath h kvs refs) -> Forall2 (orel (rd st W)) refs ps ->
    rd st W a (Path h kvs ps).

Lemma rd_keep st st' (W W' : loc -> Prop) : (forall a, W a -> st' a = st a) -> (forall a, W a -> W' a) ->
  forall a p, rd st W a p -> rd st' W' a p.
Proof.
  intros E Sub. fix go 3. intros a p R. destruct R as [a h kvs refs ps Wa Ea F].
  apply rd_path with (refs := refs); [auto|rewrite E; assumption|].
  clear Wa Ea. revert refs ps F. fix inner 3. intros refs ps F.
  destruct F as [|o o' l l' H F']; constructor.
  - destruct H as [|x y H]; constructor. exact (go x y H).
  - exact (inner l l' F').
Qed.

Definition sim {A B} (R : A -> B -> Prop) (x : res A) (y : res B) : Prop :=
  match x, y with
  | Ok a, Ok b => R a b
  | Panic s, Panic s' => s = s'
  | Fuel, Fuel => True
  | _, _ => False
  end.

Lemma sim_bind {A B A' B'} (R : A -> B -> Prop) (R' : A' -> B' -> Prop) x y f g :
  sim R x y -> (forall a b, R a b -> sim R' (f a) (g b)) -> sim R' (bind x f) (bind y g).
Proof. destruct x, y; cbn; try contradiction; auto. Qed.

Section Reading.
Context (st : cells) (W : loc -> Prop).
Notation R := (orel (rd st W)).

Definition obs_rel (x : @s_obs_res K V) (y : @obs_res K V) : Prop :=
  Forall2 R (so_paths x) (o_paths y) /\ R (so_next x) (o_next y) /\ so_kvs x = o_kvs y.

Lemma unwrap_nth refs ps i m : Forall2 R refs ps ->
  sim R (unwrap m (nth_error refs i)) (unwrap m (nth_error ps i)).
Proof. intros F. destruct (forall2_nth R refs ps i F); cbn; auto. Qed.

Lemma copy_sim h kvs refs ps n i : Forall2 R refs ps ->
  sim (Forall2 R) (s_copy_paths (SPath h kvs refs) n i) (copy_paths (Path h kvs ps) n i).
Proof.
  intros F. revert i; induction n as [|n IH]; intros i; cbn [s_copy_paths copy_paths sp_paths p_paths].
  - constructor.
  - eapply sim_bind; [apply unwrap_nth, F|]. intros a b Hab.
    eapply sim_bind; [apply IH|]. intros l l' Hl. cbn. constructor; auto.
Qed.

Lemma match_sim a h kvs refs ps n i kb hb acc acc' : Forall2 R refs ps -> rd st W a (Path h kvs ps) ->
  Forall2 R acc acc' ->
  sim obs_rel (s_match_bits a (SPath h kvs refs) n i kb hb acc) (match_bits (Path h kvs ps) n i kb hb acc').
Proof.
  intros F Ra. revert i kb hb acc acc'; induction n as [|n IH]; intros i kb hb acc acc' Fa;
    cbn [s_match_bits match_bits sp_paths p_paths].
  - reflexivity.
  - eapply sim_bind; [apply unwrap_nth, F|]. intros x y Hxy.
    destruct (N.land kb 1 =? N.land hb 1)%N.
    + apply IH. apply Forall2_app; auto.
    + destruct Hxy as [|x y Hxy]; cbn; split; cbn.
      * apply Forall2_app; auto. constructor; [constructor; exact Ra|]. apply forall2_repeat. constructor.
      * split; [constructor|reflexivity].
      * apply Forall2_app; auto. constructor; [constructor; exact Ra|constructor].
      * split; [constructor; exact Hxy|reflexivity].
Qed.

Lemma step_sim a h kvs refs ps len kb i : Forall2 R refs ps -> rd st W a (Path h kvs ps) ->
  sim obs_rel (s_build_path_step debug a (SPath h kvs refs) len kb i) (build_path_step debug (Path h kvs ps) len kb i).
Proof.
  intros F Ra. unfold s_build_path_step, build_path_step. cbn [sp_hash p_hash sp_kvs p_kvs].
  assert (Er : forall x, sim eq (shr debug x i) (shr debug x i)).
  { intros x. destruct (shr debug x i); cbn; auto. }
  eapply sim_bind; [apply Er|]. intros k1 k2 ->. eapply sim_bind; [apply Er|]. intros h1 h2 ->.
  destruct (h2 =? k2)%N.
  - eapply sim_bind; [apply copy_sim, F|]. intros l l' Hl. cbn. split; [exact Hl|]. split; [constructor|reflexivity].
  - apply match_sim; auto.
Qed.

Definition found_rel (x : option (list (K * option V)) * list (option loc))
    (y : option (list (K * option V)) * list (option path)) : Prop :=
  fst x = fst y /\ Forall2 R (snd x) (snd y).

Lemma rec_sim fuel len key a p cp cp' : rd st W a p -> Forall2 R cp cp' ->
  sim found_rel (s_build_path_rec debug st fuel len key a cp) (build_path_rec debug fuel len key p cp').
Proof.
  revert a p cp cp'; induction fuel as [|fuel IH]; intros a p cp cp' Ra F; [exact I|].
  cbn [s_build_path_rec build_path_rec].
  destruct Ra as [a h kvs refs ps Wa Ea Fr]. rewrite Ea. cbn [unwrap bind].
  assert (Ra : rd st W a (Path h kvs ps)) by (eapply rd_path; eauto).
  rewrite (forall2_len _ _ _ F).
  eapply sim_bind; [apply (step_sim a h kvs refs ps); auto|]. intros r r' (Fp & Rn & Ek). rewrite Ek.
  assert (F2 : Forall2 R (cp ++ so_paths r) (cp' ++ o_paths r')) by (apply Forall2_app; auto).
  pose proof (forall2_len _ _ _ F2) as Len.
  destruct (o_kvs r') as [l|].
  - rewrite Len. destruct (length (cp' ++ o_paths r') =? len); cbn; [split; auto|reflexivity].
  - destruct Rn as [|x y Rxy].
    + rewrite Len. destruct (length (cp' ++ o_paths r') =? len); cbn; [split; auto|reflexivity].
    + apply IH; auto.
Qed.

(** ** Handles *)
Definition hrel (s : sskiplist) (t : skiplist K V) : Prop :=
  s_path_len s = path_len t /\ s_name s = sk_name t /\ s_cntr s = cntr t /\ R (s_head s) (head t).

Lemma find_sim s t k : hrel s t ->
  sim (fun x y => fst x = fst y /\ Forall2 R (snd x) (snd y)) (ssk_find my_hash debug st s k) (sk_find my_hash debug t k).
Proof.
  intros (El & En & Ec & Rh). unfold ssk_find, sk_find. rewrite El.
  destruct (make_mask (path_len t)) as [mask| |]; cbn; auto.
  destruct Rh as [|a p Rp]; cbn; [split; auto|].
  eapply sim_bind; [apply rec_sim; [exact Rp|constructor]|].
  intros [x cx] [y cy] [E F]. cbn in *. subst. split; auto.
Qed.

Lemma get_sim s t k : hrel s t -> sim eq (ssk_get keqb my_hash debug st s k) (sk_get keqb my_hash debug t k).
Proof.
  intros H. unfold ssk_get, sk_get. eapply sim_bind; [apply find_sim, H|].
  intros [[h x] cx] [[h' y] cy] [E _]. cbn in *. inversion E; subst. reflexivity.
Qed.

(** The cell that ext writes. *)
Definition next_cell (q : list name) (s : sskiplist) : loc := (q, NPair (s_name s) (NNum (s_cntr s))).

Lemma ext_sim q s t k o : hrel s t -> ~ W (next_cell q s) ->
  sim (fun x y => fst (fst x) = fst y /\
        (exists p, snd (fst x) = put_cell st (next_cell q s) p) /\
        s_path_len (snd x) = path_len (snd y) /\ s_name (snd x) = sk_name (snd y) /\ s_cntr (snd x) = cntr (snd y) /\
        orel (rd (snd (fst x)) (fun b => W b \/ b = next_cell q s)) (s_head (snd x)) (head (snd y)))
    (ssk_ext keqb my_hash debug q st s k o) (sk_ext keqb my_hash debug t k o).
Proof.
  intros H N. unfold ssk_ext, sk_ext. eapply sim_bind; [apply find_sim, H|].
  intros [[h x] cx] [[h' y] cy] [E F]. cbn [fst snd] in *. inversion E; subst h' y. clear E.
  destruct H as (El & En & Ec & Rh).
  fold (next_cell q s).
  set (ab := match x with Some kvs => _ | None => _ end).
  set (cd := match x with Some kvs => _ | None => _ end).
  assert (X : fst ab = fst cd /\ Forall2 R (snd ab) (snd cd)).
  { subst ab cd. destruct x as [kvs|].
    - destruct (fold_left (ext_pair keqb k o) kvs ([], None, false)) as [[nk oo] found]. cbn. auto.
    - cbn. split; [reflexivity|]. unfold s_fill_empty, fill_empty. rewrite (forall2_len _ _ _ F), El.
      apply Forall2_app; [exact F|]. apply forall2_repeat. constructor. }
  clearbody ab cd. destruct ab as [[nk oo] c1], cd as [[nk' oo'] c2]. cbn [fst snd] in X. destruct X as [X1 X2].
  inversion X1; subst nk' oo'. cbn [sim]. cbn [fst snd s_path_len s_name s_cntr s_head path_len sk_name cntr head].
  split; [reflexivity|]. split; [eauto|]. split; [exact El|]. split; [exact En|]. split; [now rewrite Ec|].
  constructor. apply rd_path with (refs := c1).
  - now right.
  - unfold put_cell. destruct (loc_eq_dec (next_cell q s) (next_cell q s)); [reflexivity|contradiction].
  - eapply forall2_impl; [|exact X2]. intros a b [|a' b' Hab]; constructor.
    eapply rd_keep; [| |exact Hab]; [|now left].
    intros a'' Wa. unfold put_cell. destruct (loc_eq_dec a'' (next_cell q s)); [subst; contradiction|reflexivity].
Qed.

End Reading.

Lemma hrel_keep st st' (W W' : loc -> Prop) s t : (forall a, W a -> st' a = st a) -> (forall a, W a -> W' a) ->
  hrel st W s t -> hrel st' W' s t.
Proof.
  intros E Sub (A & B & C & D). repeat split; auto. destruct D as [|a p D]; constructor.
  eapply rd_keep; eauto.
Qed.

(** ** Scripts on fresh cells *)

Context (keqb_spec : forall a b, keqb a b = true <-> a = b).

(** A handle, what it is bound to, and its name and number. *)
Definition linked (st : cells) (W : loc -> Prop) (x : sskiplist * @history K V * (name * N)) : Prop :=
  let '(s, h, nc) := x in
  nc = (s_name s, s_cntr s) /\
  exists L t, 0 < L /\ (debug = true -> L < 64) /\ hrel st W s t /\ rep keqb my_hash L h t.

Lemma linked_keep st st' (W W' : loc -> Prop) x : (forall a, W a -> st' a = st a) -> (forall a, W a -> W' a) ->
  linked st W x -> linked st' W' x.
Proof.
  destruct x as [[s h] nc]. intros E Sub (A & L & t & HL & Hd & Hr & Rp). split; [exact A|].
  exists L, t. split; [exact HL|]. split; [exact Hd|]. split; [|exact Rp]. eapply hrel_keep; eauto.
Qed.

Definition c_hand (x : sskiplist * @history K V * (name * N)) := fst (fst x).
Definition c_hist (x : sskiplist * @history K V * (name * N)) := snd (fst x).
Definition c_name (x : sskiplist * @history K V * (name * N)) := snd x.

Lemma nth_none {X Y} (f : X -> Y) l i : nth_error l i = None -> nth_error (map f l) i = None.
Proof. intros E. rewrite nth_error_map, E. reflexivity. Qed.
Lemma nth_some {X Y} (f : X -> Y) l i x : nth_error l i = Some x -> nth_error (map f l) i = Some (f x).
Proof. intros E. rewrite nth_error_map, E. reflexivity. Qed.

Lemma put_other (st : cells) (a b : loc) (p : spath) : b <> a -> put_cell st a p b = st b.
Proof. intros N. unfold put_cell. destruct (loc_eq_dec b a); [contradiction|reflexivity]. Qed.
Lemma put_here (st : cells) (a : loc) (p : spath) : put_cell st a p a = Some p.
Proof. unfold put_cell. destruct (loc_eq_dec a a); [reflexivity|contradiction]. Qed.

(** What one extension does. *)
Lemma ext_linked st W s h nc q k o : linked st W (s, h, nc) -> ~ W (next_cell q s) ->
  exists p s', ssk_ext keqb my_hash debug q st s k o = Ok (bound keqb h k, put_cell st (next_cell q s) p, s') /\
    linked (put_cell st (next_cell q s) p) (fun b => W b \/ b = next_cell q s) (s', (k, o) :: h, (fst nc, (snd nc + 1)%N)).
Proof.
  intros (En & L & t & HL & Hd & Hr & Rp) N.
  pose proof (ext_sim st W q s t k o Hr N) as S.
  destruct (sk_ext_spec keqb my_hash debug keqb_spec L HL Hd h t k o Rp) as (t' & Et & Rp').
  rewrite Et in S.
  assert (En' : forall r st' s', ssk_ext keqb my_hash debug q st s k o = Ok (r, st', s') ->
    s_name s' = s_name s /\ s_cntr s' = (s_cntr s + 1)%N).
  { intros r st' s'. unfold ssk_ext. destruct (ssk_find my_hash debug st s k) as [[[hh x] cx]| |]; cbn [bind]; try discriminate.
    destruct (match x with Some kvs => _ | None => _ end) as [[? ?] ?]. intros [= <- <- <-]. auto. }
  destruct (ssk_ext keqb my_hash debug q st s k o) as [[[r st'] s']| |]; cbn [sim] in S; try contradiction.
  cbn [fst snd] in S. destruct S as (-> & (p & ->) & A & B & C & D).
  destruct (En' _ _ _ eq_refl) as [E1 E2].
  exists p, s'. split; [reflexivity|]. split.
  - subst nc. cbn [fst snd]. now rewrite E1, E2.
  - exists L, t'. repeat split; auto.
Qed.

Lemma h_step_fresh st W l o : Forall (linked st W) l ->
  (forall len n, o = HEmp len n -> 0 < len /\ (debug = true -> len < 64)) ->
  (forall a, In a (fst (h_write_step (map c_name l) o)) -> ~ W a) ->
  exists st' l',
    h_step keqb my_hash debug st (map c_hand l) o = Ok (fst (h_spec_step keqb (map c_hist l) o), st', map c_hand l') /\
    snd (h_spec_step keqb (map c_hist l) o) = map c_hist l' /\
    snd (h_write_step (map c_name l) o) = map c_name l' /\
    Forall (linked st' (fun b => W b \/ In b (fst (h_write_step (map c_name l) o)))) l'.
Proof.
  intros F HL N.
  assert (Keep : Forall (linked st (fun b => W b \/ In b [])) l).
  { eapply Forall_impl; [|exact F]. intros x. apply linked_keep; auto. }
  destruct o as [len n|i|i q op]; cbn [h_step h_spec_step h_write_step] in *.
  - exists st, (l ++ [(ssk_emp len n, [], (n, 1%N))]). rewrite !map_app. cbn [fst snd].
    repeat split; auto. apply Forall_app. split; [exact Keep|]. constructor; [|constructor].
    split; [reflexivity|]. destruct (HL len n eq_refl) as [A B].
    exists len, (sk_emp len n). repeat split; auto; [constructor|]. apply rep_emp.
  - destruct (nth_error l i) as [x|] eqn:E.
    + rewrite !(nth_some _ _ _ _ E). cbn [fst snd]. exists st, (l ++ [x]). rewrite !map_app. repeat split; auto.
      apply Forall_app. split; [exact Keep|]. constructor; [|constructor]. eapply nth_forall; eauto.
    + rewrite !(nth_none _ _ _ E). cbn [fst snd]. exists st, l. auto.
  - destruct (nth_error l i) as [x|] eqn:E.
    2:{ rewrite !(nth_none _ _ _ E). cbn [fst snd]. exists st, l. auto. }
    pose proof (nth_some c_hand _ _ _ E) as E1. pose proof (nth_some c_hist _ _ _ E) as E2.
    pose proof (nth_some c_name _ _ _ E) as E3.
    rewrite E3 in N. rewrite E1, E2, E3.
    destruct x as [[s h] nc]. cbn [c_hand c_hist c_name fst snd] in *.
    pose proof (nth_forall _ _ _ _ F E) as Lx. assert (Enc : nc = (s_name s, s_cntr s)) by apply Lx.
    assert (Ext : forall k o, (forall a, In a [(q, NPair (fst nc) (NNum (snd nc)))] -> ~ W a) ->
      exists st' s', ssk_ext keqb my_hash debug q st s k o = Ok (bound keqb h k, st', s') /\
        Forall (linked st' (fun b => W b \/ In b [(q, NPair (fst nc) (NNum (snd nc)))]))
          (update i (s', (k, o) :: h, (fst nc, (snd nc + 1)%N)) l)).
    { intros k o Na. subst nc. cbn [fst snd] in *. fold (next_cell q s) in *.
      assert (Nn : ~ W (next_cell q s)) by (apply Na; now left).
      destruct (ext_linked st W s h _ q k o Lx Nn) as (p & s' & Es & Ls).
      exists (put_cell st (next_cell q s) p), s'. split; [exact Es|]. apply update_forall.
      - eapply linked_keep; [| |exact Ls]; [reflexivity|]. intros a [Wa| ->]; [now left|right; now left].
      - eapply Forall_impl; [|exact F]. intros x. apply linked_keep; [|now left].
        intros a Wa. apply put_other. intros ->. contradiction. }
    destruct nc as [n c]. cbn [fst snd] in Ext.
    destruct op as [k o|k v|k|k|m]; cbn [extends map_spec_step fst snd] in *.
    + destruct (Ext k o N) as (st' & s' & Es & Fl). rewrite Es. cbn [bind].
      exists st', (update i (s', (k, o) :: h, (n, (c + 1)%N)) l). rewrite !update_map. cbn [c_hand c_hist c_name fst snd].
      split; [reflexivity|]. split; [reflexivity|]. split; [reflexivity|exact Fl].
    + unfold ssk_put. destruct (Ext k (Some v) N) as (st' & s' & Es & Fl). rewrite Es. cbn [bind].
      exists st', (update i (s', (k, Some v) :: h, (n, (c + 1)%N)) l). rewrite !update_map. cbn [c_hand c_hist c_name fst snd].
      split; [reflexivity|]. split; [reflexivity|]. split; [reflexivity|exact Fl].
    + unfold ssk_rem. destruct (Ext k None N) as (st' & s' & Es & Fl). rewrite Es. cbn [bind].
      exists st', (update i (s', (k, None) :: h, (n, (c + 1)%N)) l). rewrite !update_map. cbn [c_hand c_hist c_name fst snd].
      split; [reflexivity|]. split; [reflexivity|]. split; [reflexivity|exact Fl].
    + destruct Lx as (_ & L & t & HL' & Hd & Hr & Rp).
      pose proof (get_sim st W s t k Hr) as S. rewrite (sk_get_spec keqb my_hash debug L HL' Hd h t k Rp) in S.
      destruct (ssk_get keqb my_hash debug st s k) as [r| |]; cbn [sim] in S; try contradiction. subst r. cbn [bind].
      exists st, l. split; [reflexivity|]. split; [|split; [reflexivity|exact Keep]].
      apply update_same. rewrite (nth_some c_hist _ _ _ E). reflexivity.
    + exists st, (update i (ssk_archive s m, h, (m, 0%N)) l). rewrite !update_map. cbn [c_hand c_hist c_name fst snd].
      split; [reflexivity|]. split; [reflexivity|]. split; [reflexivity|].
      apply update_forall; [|exact Keep].
      destruct Lx as (_ & L & t & HL' & Hd & Hr & Rp). split; [reflexivity|].
      exists L, (sk_archive t m). split; [exact HL'|]. split; [exact Hd|]. split; [|apply rep_archive; exact Rp].
      destruct Hr as (A & B & C & D). split; [exact A|]. split; [reflexivity|]. split; [reflexivity|].
      cbn [s_head ssk_archive head sk_archive]. destruct D; constructor.
      eapply rd_keep; [| |eassumption]; auto.
Qed.

Lemma h_run_fresh (ops : list (h_op K V)) : forall st W l, Forall (linked st W) l -> lengths_fine debug ops ->
  NoDup (h_writes (map c_name l) ops) -> (forall a, In a (h_writes (map c_name l) ops) -> ~ W a) ->
  exists st', h_run keqb my_hash debug st (map c_hand l) ops = Ok (h_spec_run keqb (map c_hist l) ops, st').
Proof.
  induction ops as [|o ops IH]; intros st W l F HL ND N; cbn [h_run h_spec_run]; [eauto|].
  cbn [h_writes] in ND, N.
  destruct (h_write_step (map c_name l) o) as [w hs'] eqn:Ew.
  destruct (h_step_fresh st W l o F) as (st' & l' & E1 & E2 & E3 & F').
  { intros len n ->. apply (HL len n). now left. }
  { rewrite Ew. cbn [fst]. intros a Ia. apply N. apply in_or_app. now left. }
  rewrite Ew in E3, F'. cbn [fst snd] in E3, F'. subst hs'.
  rewrite E1. cbn [bind].
  destruct (h_spec_step keqb (map c_hist l) o) as [r hh]. cbn [fst snd] in *. subst hh.
  destruct (IH st' _ l' F') as (st'' & E).
  { intros len n Hin. apply (HL len n). now right. }
  { exact (nodup_app_r _ _ ND). }
  { intros a Ia [Wa|Iw].
    - apply (N a); [apply in_or_app; now right|exact Wa].
    - revert Ia. clear - ND Iw. induction w as [|b w IHw]; [destruct Iw|].
      cbn in ND. inversion ND as [|? ? Nb ND']; subst. destruct Iw as [->|Iw]; [|auto].
      intros Ia. apply Nb, in_or_app. now right. }
  rewrite E. cbn [bind]. eauto.
Qed.

Theorem fresh_answers st (ops : list (h_op K V)) : lengths_fine debug ops -> NoDup (h_writes [] ops) ->
  exists st', h_run keqb my_hash debug st [] ops = Ok (h_spec_run keqb [] ops, st').
Proof.
  intros HL ND. apply (h_run_fresh ops st (fun _ => False) []); auto.
Qed.

(** ** Which cells are written *)

Definition hname (s : sskiplist) : name * N := (s_name s, s_cntr s).

Lemma ext_effect q (st : cells) s k o r (st' : cells) s' : ssk_ext keqb my_hash debug q st s k o = Ok (r, st', s') ->
  (exists p, st' = put_cell st (next_cell q s) p) /\ hname s' = (s_name s, (s_cntr s + 1)%N).
Proof.
  unfold ssk_ext. destruct (ssk_find my_hash debug st s k) as [[[hh x] cx]| |]; cbn [bind]; try discriminate.
  destruct (match x with Some kvs => _ | None => _ end) as [[? ?] ?]. intros [= <- <- <-].
  split; [eauto|reflexivity].
Qed.

Lemma h_step_effect (st : cells) hs o r (st' : cells) hs' : h_step keqb my_hash debug st hs o = Ok (r, st', hs') ->
  map hname hs' = snd (h_write_step (map hname hs) o) /\
  match fst (h_write_step (map hname hs) o) with
  | [] => st' = st
  | [a] => exists p, st' = put_cell st a p
  | _ => False
  end.
Proof.
  destruct o as [len n|i|i q op]; cbn [h_step h_write_step].
  - intros [= <- <- <-]. rewrite map_app. split; reflexivity.
  - destruct (nth_error hs i) as [s|] eqn:E.
    + rewrite (nth_some hname _ _ _ E). intros [= <- <- <-]. rewrite map_app. split; reflexivity.
    + rewrite (nth_none hname _ _ E). intros [= <- <- <-]. split; reflexivity.
  - destruct (nth_error hs i) as [s|] eqn:E.
    2:{ rewrite (nth_none hname _ _ E). intros [= <- <- <-]. split; reflexivity. }
    rewrite (nth_some hname _ _ _ E). unfold hname at 2 5.
    destruct op as [k o|k v|k|k|m]; cbn [extends fst snd].
    + destruct (ssk_ext keqb my_hash debug q st s k o) as [[[x y] z]| |] eqn:Ex; cbn [bind]; try discriminate.
      intros [= <- <- <-]. destruct (ext_effect _ _ _ _ _ _ _ _ Ex) as [P H]. rewrite update_map, H. split; [reflexivity|exact P].
    + unfold ssk_put. destruct (ssk_ext keqb my_hash debug q st s k (Some v)) as [[[x y] z]| |] eqn:Ex; cbn [bind]; try discriminate.
      intros [= <- <- <-]. destruct (ext_effect _ _ _ _ _ _ _ _ Ex) as [P H]. rewrite update_map, H. split; [reflexivity|exact P].
    + unfold ssk_rem. destruct (ssk_ext keqb my_hash debug q st s k None) as [[[x y] z]| |] eqn:Ex; cbn [bind]; try discriminate.
      intros [= <- <- <-]. destruct (ext_effect _ _ _ _ _ _ _ _ Ex) as [P H]. rewrite update_map, H. split; [reflexivity|exact P].
    + destruct (ssk_get keqb my_hash debug st s k); cbn [bind]; try discriminate. intros [= <- <- <-]. split; reflexivity.
    + intros [= <- <- <-]. rewrite update_map. split; reflexivity.
Qed.

Lemma h_run_effect (ops : list (h_op K V)) : forall st hs rs st', h_run keqb my_hash debug st hs ops = Ok (rs, st') ->
  (forall a, ~ In a (h_writes (map hname hs) ops) -> st' a = st a) /\
  (forall a, In a (h_writes (map hname hs) ops) -> st' a <> None).
Proof.
  induction ops as [|o ops IH]; intros st hs rs st'; cbn [h_run h_writes].
  - intros [= <- <-]. split; [reflexivity|intros a []].
  - destruct (h_step keqb my_hash debug st hs o) as [[[r st1] hs1]| |] eqn:E; cbn [bind]; try discriminate.
    destruct (h_run keqb my_hash debug st1 hs1 ops) as [[rs1 st2]| |] eqn:E2; cbn [bind]; try discriminate.
    intros [= <- <-]. destruct (h_step_effect _ _ _ _ _ _ E) as [A B].
    destruct (h_write_step (map hname hs) o) as [w nn]. cbn [fst snd] in *. subst nn.
    destruct (IH _ _ _ _ E2) as [C D]. split.
    + intros a Na. rewrite C by (intros I; apply Na, in_or_app; now right).
      destruct w as [|b [|]]; [now subst| |contradiction]. destruct B as [p ->].
      apply put_other. intros ->. apply Na. now left.
    + intros a Ia. destruct (in_dec loc_eq_dec a (h_writes (map hname hs1) ops)) as [I|I]; [auto|].
      apply in_app_or in Ia. destruct Ia as [Ia|]; [|contradiction].
      rewrite C by exact I. destruct w as [|b [|]]; [destruct Ia| |contradiction].
      destruct B as [p ->]. destruct Ia as [->|[]]. rewrite put_here. discriminate.
Qed.

(** ** Any script: what holds even when cells are overwritten *)

(** Cells in [W] refer only to such cells and hold only pairs in [B]. *)
Definition closed (st : cells) (W : loc -> Prop) (B : K * option V -> Prop) : Prop :=
  forall a, W a -> exists h kvs refs, st a = Some (SPath h kvs refs) /\
    (forall b, In (Some b) refs -> W b) /\ Forall B kvs.

Section Closed.
Context (st : cells) (W : loc -> Prop) (B : K * option V -> Prop) (C : closed st W B).

Definition refs_in (l : list (option loc)) : Prop := forall b, In (Some b) l -> W b.

Lemma refs_in_app l l' : refs_in l -> refs_in l' -> refs_in (l ++ l').
Proof. intros H H' b I. apply in_app_or in I. destruct I; auto. Qed.
Lemma refs_in_none n : refs_in (repeat None n).
Proof. intros b I. apply repeat_spec in I. discriminate. Qed.

Lemma copy_in p n i l : refs_in (sp_paths p) -> @s_copy_paths K V p n i = Ok l -> refs_in l.
Proof.
  intros H. revert i l; induction n as [|n IH]; intros i l; cbn.
  - intros [= <-] b [].
  - destruct (nth_error (sp_paths p) i) as [e|] eqn:E; cbn; try discriminate.
    destruct (s_copy_paths p n (S i)) as [l1| |] eqn:E1; cbn; try discriminate.
    intros [= <-] b [->|I]; [apply H; eapply nth_error_In; eauto|]. eapply IH; eauto.
Qed.

Lemma match_in a p n : forall i kb hb acc r, W a -> refs_in (sp_paths p) -> refs_in acc ->
  @s_match_bits K V a p n i kb hb acc = Ok r ->
  refs_in (so_paths r) /\ (forall b, so_next r = Some b -> W b) /\ so_kvs r = None.
Proof.
  induction n as [|n IH]; intros i kb hb acc r Wa H Ha; cbn; [discriminate|].
  destruct (nth_error (sp_paths p) i) as [e|] eqn:E; cbn; try discriminate. apply nth_error_In in E.
  destruct (N.land kb 1 =? N.land hb 1)%N.
  - intros Er. eapply IH; [| | |exact Er]; auto. apply refs_in_app; auto. intros b [->|[]]. auto.
  - assert (Sa : refs_in [Some a]) by (intros b [[= <-]|[]]; exact Wa).
    destruct e as [x|]; intros [= <-]; cbn [so_paths so_next so_kvs].
    + split; [|split; [|reflexivity]].
      * apply refs_in_app; auto.
      * intros b [= <-]. auto.
    + split; [|split; [|reflexivity]].
      * apply refs_in_app; auto. apply (refs_in_app [Some a]); auto. apply refs_in_none.
      * discriminate.
Qed.

Lemma rec_in fuel len key : forall a cp r, W a -> refs_in cp ->
  s_build_path_rec debug st fuel len key a cp = Ok r ->
  refs_in (snd r) /\ forall l, fst r = Some l -> Forall B l.
Proof.
  induction fuel as [|fuel IH]; intros a cp r Wa Hc; cbn [s_build_path_rec]; [discriminate|].
  destruct (C a Wa) as (h & kvs & refs & Ea & Hr & Hk). rewrite Ea. cbn [unwrap bind].
  unfold s_build_path_step. cbn [sp_hash sp_kvs].
  destruct (shr debug key (length cp)) as [x| |]; cbn [bind]; try discriminate.
  destruct (shr debug h (length cp)) as [y| |]; cbn [bind]; try discriminate.
  destruct (y =? x)%N.
  - destruct (s_copy_paths _ _ _) as [l| |] eqn:E; cbn [bind]; try discriminate. cbn [so_paths so_kvs so_next].
    destruct (_ =? len); cbn; try discriminate. intros [= <-]. cbn [fst snd]. split.
    + apply refs_in_app; auto. eapply copy_in; [|exact E]. exact Hr.
    + intros l' [= <-]. exact Hk.
  - destruct (s_match_bits _ _ _ _ _ _ _) as [o| |] eqn:E; cbn [bind]; try discriminate.
    apply match_in in E; [|exact Wa|exact Hr|intros b []]. destruct E as (E1 & E2 & E3). rewrite E3.
    destruct (so_next o) as [b|].
    + intros Er. eapply IH; [| |exact Er]; auto. apply refs_in_app; auto.
    + destruct (_ =? len); cbn; try discriminate. intros [= <-]. cbn. split; [|discriminate]. apply refs_in_app; auto.
Qed.

Lemma find_in s k h x cp : (forall a, s_head s = Some a -> W a) ->
  ssk_find my_hash debug st s k = Ok (h, x, cp) -> refs_in cp /\ forall l, x = Some l -> Forall B l.
Proof.
  intros Hh. unfold ssk_find. destruct (make_mask (s_path_len s)) as [m| |]; cbn [bind]; try discriminate.
  destruct (s_head s) as [a|].
  - destruct (s_build_path_rec _ _ _ _ _ _ _) as [[y cy]| |] eqn:E; cbn [bind]; try discriminate.
    intros [= <- <- <-]. exact (rec_in _ _ _ _ _ _ (Hh a eq_refl) (fun b (F : In _ []) => match F with end) E).
  - intros [= <- <- <-]. split; [intros b []|discriminate].
Qed.

Lemma assoc_from k v l : Forall B l -> assoc keqb k l = Some v -> B (k, Some v).
Proof.
  induction 1 as [|[k0 o] l Hb F IH]; cbn; [discriminate|]. destruct (keqb k k0) eqn:E; [|exact IH].
  intros ->. apply keqb_spec in E. now subst.
Qed.

Lemma get_from s k v : (forall a, s_head s = Some a -> W a) ->
  ssk_get keqb my_hash debug st s k = Ok (Some v) -> B (k, Some v).
Proof.
  intros Hh. unfold ssk_get. destruct (ssk_find my_hash debug st s k) as [[[h x] cp]| |] eqn:E; cbn [bind]; try discriminate.
  destruct (find_in _ _ _ _ _ Hh E) as [_ F]. intros [= E1]. destruct x as [l|]; [|discriminate].
  exact (assoc_from k v l (F l eq_refl) E1).
Qed.

Lemma fold_from k o l : forall acc oo f, Forall B l ->
  (forall e, In e acc -> B e \/ e = (k, o)) -> (forall v, oo = Some (Some v) -> B (k, Some v)) ->
  let '(nk, oo', _) := fold_left (ext_pair keqb k o) l (acc, oo, f) in
  (forall e, In e nk -> B e \/ e = (k, o)) /\ (forall v, oo' = Some (Some v) -> B (k, Some v)).
Proof.
  induction l as [|[k0 o0] l IH]; intros acc oo f F Ha Ho; cbn [fold_left]; [auto|].
  inversion F as [|? ? Hb F']; subst. cbn [ext_pair]. destruct (keqb k k0) eqn:E.
  - apply keqb_spec in E. subst k0. apply IH; auto.
    + intros e I. apply in_app_or in I. destruct I as [I|[<-|[]]]; auto.
    + intros v [= ->]. exact Hb.
  - apply IH; auto. intros e I. apply in_app_or in I. destruct I as [I|[<-|[]]]; auto.
Qed.

Lemma ext_from q s k o r st' s' : (forall a, s_head s = Some a -> W a) ->
  ssk_ext keqb my_hash debug q st s k o = Ok (r, st', s') ->
  (forall v, r = Some v -> B (k, Some v)) /\ s_head s' = Some (next_cell q s) /\
  closed st' (fun b => W b \/ b = next_cell q s) (fun e => B e \/ e = (k, o)).
Proof.
  intros Hh. unfold ssk_ext. destruct (ssk_find my_hash debug st s k) as [[[h x] cp]| |] eqn:E; cbn [bind]; try discriminate.
  destruct (find_in _ _ _ _ _ Hh E) as [Rc F]. fold (next_cell q s).
  set (ab := match x with Some kvs => _ | None => _ end).
  assert (X : (forall e, In e (fst (fst ab)) -> B e \/ e = (k, o)) /\
              (forall v, snd (fst ab) = Some (Some v) -> B (k, Some v)) /\ refs_in (snd ab)).
  { subst ab. destruct x as [l|].
    - pose proof (fold_from k o l [] None false (F l eq_refl)) as P.
      destruct (fold_left (ext_pair keqb k o) l ([], None, false)) as [[nk oo] found].
      destruct P as [P1 P2]; [intros e []|discriminate|]. cbn. split; [|auto].
      destruct found; auto. intros e I. apply in_app_or in I. destruct I as [I|[<-|[]]]; auto.
    - cbn. split; [intros e [<-|[]]; auto|]. split; [discriminate|].
      apply refs_in_app; auto. apply refs_in_none. }
  clearbody ab. destruct ab as [[nk oo] cp']. cbn [fst snd] in X. destruct X as (X1 & X2 & X3).
  intros [= <- <- <-]. split; [|split; [reflexivity|]].
  - intros v. destruct oo as [ov|]; [|discriminate]. intros ->. auto.
  - intros a Wa. destruct (loc_eq_dec a (next_cell q s)) as [->|Na].
    + exists h, nk, cp'. rewrite put_here. split; [reflexivity|]. split; [auto|].
      apply Forall_forall. auto.
    + destruct Wa as [Wa|]; [|contradiction]. destruct (C a Wa) as (h' & kvs & refs & Ea & Hr & Hk).
      exists h', kvs, refs. rewrite put_other by exact Na. split; [exact Ea|]. split; [auto|].
      eapply Forall_impl; [|exact Hk]. auto.
Qed.

End Closed.

Lemma h_run_from (ops : list (h_op K V)) : forall st hs (W : loc -> Prop) (B : K * option V -> Prop) rs st',
  closed st W B -> Forall (fun s => forall a, s_head s = Some a -> W a) hs ->
  h_run keqb my_hash debug st hs ops = Ok (rs, st') ->
  forall i h q op k v, nth_error ops i = Some (HDo h q op) -> asks op = Some k ->
    nth_error rs i = Some (Some (Some v)) ->
    B (k, Some v) \/ exists j h' q' op', j < i /\ nth_error ops j = Some (HDo h' q' op') /\ binds op' = Some (k, Some v).
Proof.
  induction ops as [|o ops IH]; intros st hs W B rs st' C F; cbn [h_run].
  - intros _ [|i]; discriminate.
  - destruct (h_step keqb my_hash debug st hs o) as [[[r st1] hs1]| |] eqn:E; cbn [bind]; try discriminate.
    destruct (h_run keqb my_hash debug st1 hs1 ops) as [[rs1 st2]| |] eqn:E2; cbn [bind]; try discriminate.
    intros [= <- <-].
    assert (X : exists (W1 : loc -> Prop) (B1 : K * option V -> Prop), closed st1 W1 B1 /\
      Forall (fun s => forall a, s_head s = Some a -> W1 a) hs1 /\
      (forall e, B1 e -> B e \/ exists h q op, o = HDo h q op /\ binds op = Some e) /\
      (forall h q op k v, o = HDo h q op -> asks op = Some k -> r = Some (Some v) -> B (k, Some v))).
    { assert (Ext : forall i q s k o r st' s', nth_error hs i = Some s ->
        ssk_ext keqb my_hash debug q st s k o = Ok (r, st', s') ->
        exists W1 B1, closed st' W1 B1 /\ Forall (fun s => forall a, s_head s = Some a -> W1 a) (update i s' hs) /\
          (forall e, B1 e -> B e \/ e = (k, o)) /\ (forall v, r = Some v -> B (k, Some v))).
      { intros i q s k o' r' st3 s' Es Ex. pose proof (nth_forall _ _ _ _ F Es) as Hh.
        destruct (ext_from st W B C q s k o' r' st3 s' Hh Ex) as (P1 & P2 & P3).
        exists (fun b => W b \/ b = next_cell q s), (fun e => B e \/ e = (k, o')).
        split; [exact P3|]. split; [|auto]. apply update_forall.
        - intros a. rewrite P2. intros [= <-]. now right.
        - eapply Forall_impl; [|exact F]. cbn. auto. }
      destruct o as [len n|i|i q op]; cbn [h_step] in E.
      - inversion E; subst. exists W, B. split; [exact C|]. split; [|split; [auto|discriminate]].
        apply Forall_app. split; [exact F|]. constructor; [discriminate|constructor].
      - destruct (nth_error hs i) as [s|] eqn:Es; inversion E; subst; exists W, B;
          (split; [exact C|]); (split; [|split; [auto|discriminate]]); [|exact F].
        apply Forall_app. split; [exact F|]. constructor; [|constructor]. exact (nth_forall _ _ _ _ F Es).
      - destruct (nth_error hs i) as [s|] eqn:Es.
        2:{ inversion E; subst. exists W, B. repeat split; auto. discriminate. }
        destruct op as [k o|k v|k|k|m].
        + destruct (ssk_ext keqb my_hash debug q st s k o) as [[[x y] z]| |] eqn:Ex; cbn [bind] in E; try discriminate.
          inversion E; subst. destruct (Ext _ _ _ _ _ _ _ _ Es Ex) as (W1 & B1 & P1 & P2 & P3 & P4).
          exists W1, B1. split; [exact P1|]. split; [exact P2|]. split.
          * intros e Be. destruct (P3 e Be) as [| ->]; [now left|]. right. exists i, q, (MExt k o). auto.
          * intros h q' op k' v [= <- <- <-] [= <-] [= ->]. auto.
        + unfold ssk_put in E. destruct (ssk_ext keqb my_hash debug q st s k (Some v)) as [[[x y] z]| |] eqn:Ex; cbn [bind] in E; try discriminate.
          inversion E; subst. destruct (Ext _ _ _ _ _ _ _ _ Es Ex) as (W1 & B1 & P1 & P2 & P3 & P4).
          exists W1, B1. split; [exact P1|]. split; [exact P2|]. split.
          * intros e Be. destruct (P3 e Be) as [| ->]; [now left|]. right. exists i, q, (MPut k v). auto.
          * intros h q' op k' v' [= <- <- <-]. discriminate.
        + unfold ssk_rem in E. destruct (ssk_ext keqb my_hash debug q st s k None) as [[[x y] z]| |] eqn:Ex; cbn [bind] in E; try discriminate.
          inversion E; subst. destruct (Ext _ _ _ _ _ _ _ _ Es Ex) as (W1 & B1 & P1 & P2 & P3 & P4).
          exists W1, B1. split; [exact P1|]. split; [exact P2|]. split.
          * intros e Be. destruct (P3 e Be) as [| ->]; [now left|]. right. exists i, q, (MRem k). auto.
          * intros h q' op k' v [= <- <- <-] [= <-] [= ->]. auto.
        + destruct (ssk_get keqb my_hash debug st s k) as [x| |] eqn:Ex; cbn [bind] in E; try discriminate.
          inversion E; subst. exists W, B. split; [exact C|]. split; [exact F|]. split; [auto|].
          intros h q' op k' v [= <- <- <-] [= <-] [= ->].
          exact (get_from st1 W B C s k v (nth_forall _ _ _ _ F Es) Ex).
        + inversion E; subst. exists W, B. split; [exact C|]. split; [|split; [auto|]].
          * apply update_forall; [|exact F]. exact (nth_forall _ _ _ _ F Es).
          * intros h q' op k' v [= <- <- <-]. discriminate. }
    destruct X as (W1 & B1 & C1 & F1 & Sub & Now).
    intros [|i] h q op k v Eo Ea Er; cbn [nth_error] in *.
    + inversion Eo; inversion Er; subst. left. eapply Now; eauto.
    + destruct (IH st1 hs1 W1 B1 rs1 st2 C1 F1 E2 i h q op k v Eo Ea Er) as [Be|(j & h' & q' & op' & Hj & Ej & Eb)].
      * destruct (Sub _ Be) as [|(h' & q' & op' & -> & Eb)]; [now left|]. right.
        exists 0, h', q', op'. split; [lia|]. split; [reflexivity|exact Eb].
      * right. exists (S j), h', q', op'. split; [lia|]. auto.
Qed.

Theorem answers_were_put st (ops : list (h_op K V)) rs st' : h_run keqb my_hash debug st [] ops = Ok (rs, st') ->
  forall i h q op k v, nth_error ops i = Some (HDo h q op) -> asks op = Some k ->
    nth_error rs i = Some (Some (Some v)) ->
    exists j h' q' op', j < i /\ nth_error ops j = Some (HDo h' q' op') /\ binds op' = Some (k, Some v).
Proof.
  intros E i h q op k v Eo Ea Er.
  destruct (h_run_from ops st [] (fun _ => False) (fun _ => False) rs st') with (i := i) (h := h) (q := q) (op := op) (k := k) (v := v)
    as [[]|H]; auto.
  intros a [].
Qed.

(** ** No panics, whatever is overwritten, if all have one length *)

Section NoPanic.
Context (L : nat) (HL : 0 < L) (HL64 : L < 64).

Definition shaped (st : cells) (W : loc -> Prop) : Prop :=
  forall a, W a -> exists h kvs refs, st a = Some (SPath h kvs refs) /\
    (forall b, In (Some b) refs -> W b) /\ (h < 2 ^ N.of_nat L)%N /\ length refs = L.

Lemma nth_there {X} (l : list X) i : i < length l -> exists x, nth_error l i = Some x.
Proof. intros H. destruct (nth_error l i) as [x|] eqn:E; [eauto|]. apply nth_error_None in E. lia. Qed.

Lemma copy_total (p : spath) n : forall i, i + n <= length (sp_paths p) ->
  exists l, s_copy_paths p n i = Ok l /\ length l = n.
Proof.
  induction n as [|n IH]; intros i H; cbn; [eauto|].
  destruct (nth_there (sp_paths p) i) as [x ->]; [lia|]. cbn.
  destruct (IH (S i)) as (l & -> & E); [lia|]. cbn. eexists. split; [reflexivity|]. cbn. now rewrite E.
Qed.

Lemma shift_lt x n : (x < 2 ^ N.of_nat (S n))%N -> (N.shiftr x 1 < 2 ^ N.of_nat n)%N.
Proof.
  intros H. rewrite N.shiftr_div_pow2. apply N.div_lt_upper_bound; [discriminate|].
  rewrite Nat2N.inj_succ, N.pow_succ_r' in H. exact H.
Qed.

Lemma shift_neq x y : x <> y -> N.land x 1 = N.land y 1 -> N.shiftr x 1 <> N.shiftr y 1.
Proof.
  intros Nxy E F. apply Nxy. rewrite (N.div_mod x 2), (N.div_mod y 2) by discriminate.
  change 1%N with (N.ones 1) in E. rewrite !N.land_ones in E. change (2 ^ 1)%N with 2%N in E. rewrite E.
  rewrite !N.shiftr_div_pow2 in F. change (2 ^ 1)%N with 2%N in F. now rewrite F.
Qed.

Lemma match_total a (p : spath) n : forall i kb hb acc, i + n <= length (sp_paths p) ->
  (kb < 2 ^ N.of_nat n)%N -> (hb < 2 ^ N.of_nat n)%N -> kb <> hb ->
  exists r, s_match_bits a p n i kb hb acc = Ok r /\
    match so_next r with
    | Some _ => length acc < length (so_paths r) <= length acc + n
    | None => length (so_paths r) = length acc + n
    end.
Proof.
  induction n as [|n IH]; intros i kb hb acc Hi Hk Hh Nkh.
  - exfalso. apply Nkh. change (2 ^ N.of_nat 0)%N with 1%N in *. lia.
  - cbn [s_match_bits]. destruct (nth_there (sp_paths p) i) as [e ->]; [lia|]. cbn [unwrap bind].
    destruct (N.land kb 1 =? N.land hb 1)%N eqn:E.
    + apply N.eqb_eq in E.
      destruct (IH (S i) (N.shiftr kb 1) (N.shiftr hb 1) (acc ++ [e])) as (r & Er & Hr); [lia| | | |].
      * apply shift_lt, Hk.
      * apply shift_lt, Hh.
      * apply shift_neq; assumption.
      * exists r. split; [exact Er|]. rewrite app_length in Hr. cbn [length] in Hr. destruct (so_next r); lia.
    + destruct e as [b|]; eexists; (split; [reflexivity|]); cbn [so_next so_paths]; rewrite app_length; cbn [length];
        [|rewrite repeat_length]; lia.
Qed.

Lemma shr_small x b : (x < 2 ^ N.of_nat L)%N -> b <= L -> (N.shiftr x (N.of_nat b) < 2 ^ N.of_nat (L - b))%N.
Proof.
  intros H Hb. rewrite N.shiftr_div_pow2. apply N.div_lt_upper_bound; [apply N.pow_nonzero; discriminate|].
  rewrite <- N.pow_add_r. replace (N.of_nat b + N.of_nat (L - b))%N with (N.of_nat L) by lia. exact H.
Qed.

Lemma rec_total st (W : loc -> Prop) key : shaped st W -> (key < 2 ^ N.of_nat L)%N ->
  forall fuel a cp, W a -> length cp <= L -> L - length cp < fuel -> refs_in W cp ->
  exists x cp', s_build_path_rec debug st fuel L key a cp = Ok (x, cp') /\ length cp' = L.
Proof.
  intros Sh Hk. induction fuel as [|fuel IH]; intros a cp Wa Hc Hf Rc; [lia|]. cbn [s_build_path_rec].
  destruct (Sh a Wa) as (h & kvs & refs & Ea & Hr & Hh & Hl). rewrite Ea. cbn [unwrap bind].
  unfold s_build_path_step, shr. cbn [sp_hash sp_kvs].
  destruct (length cp <? 64) eqn:E64; [|apply Nat.ltb_ge in E64; lia]. cbn [bind].
  destruct (N.shiftr h (N.of_nat (length cp)) =? N.shiftr key (N.of_nat (length cp)))%N eqn:E.
  - destruct (copy_total (SPath h kvs refs) (L - length cp) (length cp)) as (l & El & Ll); [cbn; lia|].
    rewrite El. cbn [bind so_paths so_kvs]. rewrite app_length.
    destruct (length cp + length l =? L) eqn:E1; [|apply Nat.eqb_neq in E1; lia]. cbn.
    eexists _, _. split; [reflexivity|]. rewrite app_length. lia.
  - apply N.eqb_neq in E.
    destruct (match_total a (SPath h kvs refs) (L - length cp) (length cp)
      (N.shiftr key (N.of_nat (length cp))) (N.shiftr h (N.of_nat (length cp))) []) as (r & Er & Hn).
    { cbn. lia. } { now apply shr_small. } { now apply shr_small. } { congruence. }
    rewrite Er. cbn [bind].
    assert (Ri := Er). apply (match_in W) in Ri; [|exact Wa|exact Hr|intros b []]. destruct Ri as (R1 & R2 & R3).
    rewrite R3. cbn [length] in Hn. destruct (so_next r) as [b|].
    + apply IH; [now apply R2| | |].
      * rewrite app_length. lia.
      * rewrite app_length. lia.
      * now apply refs_in_app.
    + rewrite app_length. destruct (length cp + length (so_paths r) =? L) eqn:E1; [|apply Nat.eqb_neq in E1; lia]. cbn.
      eexists _, _. split; [reflexivity|]. rewrite app_length. lia.
Qed.

Definition fits (W : loc -> Prop) (s : sskiplist) : Prop :=
  s_path_len s = L /\ forall a, s_head s = Some a -> W a.

Lemma find_total st W s k : shaped st W -> fits W s ->
  exists h x cp, ssk_find my_hash debug st s k = Ok (h, x, cp) /\ (h < 2 ^ N.of_nat L)%N /\
    refs_in W cp /\ (length cp <= L) /\ (x <> None -> length cp = L).
Proof.
  intros Sh [El Eh]. unfold ssk_find. rewrite El, (make_mask_spec L HL). cbn [bind].
  rewrite Nat.min_l by lia.
  assert (Hk : (N.land (my_hash k) (N.ones (N.of_nat L)) < 2 ^ N.of_nat L)%N).
  { rewrite N.land_ones. apply N.mod_lt. apply N.pow_nonzero. discriminate. }
  destruct (s_head s) as [a|].
  - destruct (rec_total st W _ Sh Hk (L + 2) a []) as (x & cp & Er & Lc); [now apply Eh|cbn; lia|cbn; lia|intros b []|].
    rewrite Er. cbn [bind]. eexists _, _, _. split; [reflexivity|]. split; [exact Hk|].
    assert (Cl : closed st W (fun _ => True)).
    { intros b Wb. destruct (Sh b Wb) as (h & kvs & refs & Ea & Hr & _). exists h, kvs, refs.
      split; [exact Ea|]. split; [exact Hr|]. apply Forall_forall. auto. }
    split; [|lia]. refine (proj1 (rec_in st W _ Cl _ _ _ a [] (x, cp) _ _ Er)); [now apply Eh|intros b []].
  - eexists _, _, _. split; [reflexivity|]. split; [exact Hk|]. split; [intros b []|]. cbn. split; [lia|congruence].
Qed.

Lemma ext_total q st W s k o : shaped st W -> fits W s ->
  exists r st' s', ssk_ext keqb my_hash debug q st s k o = Ok (r, st', s') /\
    shaped st' (fun b => W b \/ b = next_cell q s) /\ fits (fun b => W b \/ b = next_cell q s) s'.
Proof.
  intros Sh Ft. unfold ssk_ext. destruct (find_total st W s k Sh Ft) as (h & x & cp & Ef & Hh & Rc & Lc & Lx).
  rewrite Ef. cbn [bind]. fold (next_cell q s).
  set (ab := match x with Some kvs => _ | None => _ end).
  assert (X : refs_in W (snd ab) /\ length (snd ab) = L).
  { subst ab. destruct x as [l|].
    - destruct (fold_left (ext_pair keqb k o) l ([], None, false)) as [[nk oo] found]. cbn. split; [exact Rc|].
      apply Lx. discriminate.
    - cbn. unfold s_fill_empty. split; [apply refs_in_app; [exact Rc|apply refs_in_none]|].
      rewrite app_length, repeat_length. destruct Ft as [El _]. rewrite El. lia. }
  clearbody ab. destruct ab as [[nk oo] cp']. cbn [snd] in X. destruct X as [X1 X2].
  eexists _, _, _. split; [reflexivity|]. split.
  - intros a Wa. destruct (loc_eq_dec a (next_cell q s)) as [->|Na].
    + exists h, nk, cp'. rewrite put_here. split; [reflexivity|]. split; [intros b Ib; left; now apply X1|]. auto.
    + destruct Wa as [Wa|]; [|contradiction]. destruct (Sh a Wa) as (h' & kvs & refs & Ea & Hr & P).
      exists h', kvs, refs. rewrite put_other by exact Na. split; [exact Ea|]. split; [auto|exact P].
  - split; [exact (proj1 Ft)|]. cbn. intros a [= <-]. now right.
Qed.

Lemma h_run_total (ops : list (h_op K V)) : forall st hs (W : loc -> Prop), same_length L ops ->
  shaped st W -> Forall (fits W) hs -> exists rs st', h_run keqb my_hash debug st hs ops = Ok (rs, st').
Proof.
  induction ops as [|o ops IH]; intros st hs W SL Sh F; cbn [h_run]; [eauto|].
  assert (X : exists r st' hs' W', h_step keqb my_hash debug st hs o = Ok (r, st', hs') /\
    shaped st' W' /\ Forall (fits W') hs').
  { assert (Ext : forall i q s k o, nth_error hs i = Some s ->
      exists r st' s' W', ssk_ext keqb my_hash debug q st s k o = Ok (r, st', s') /\
        shaped st' W' /\ Forall (fits W') (update i s' hs)).
    { intros i q s k o' Es. destruct (ext_total q st W s k o' Sh (nth_forall _ _ _ _ F Es)) as (r & st' & s' & E & A & B).
      exists r, st', s', (fun b => W b \/ b = next_cell q s). split; [exact E|]. split; [exact A|].
      apply update_forall; [exact B|]. eapply Forall_impl; [|exact F]. intros s0 [P Q]. split; auto. }
    destruct o as [len n|i|i q op]; cbn [h_step].
    - eexists _, _, _, W. split; [reflexivity|]. split; [exact Sh|]. apply Forall_app. split; [exact F|].
      constructor; [|constructor]. split; [|discriminate]. cbn. apply (SL len n). now left.
    - destruct (nth_error hs i) as [s|] eqn:Es; eexists _, _, _, W; (split; [reflexivity|]); (split; [exact Sh|]); [|exact F].
      apply Forall_app. split; [exact F|]. constructor; [|constructor]. exact (nth_forall _ _ _ _ F Es).
    - destruct (nth_error hs i) as [s|] eqn:Es; [|eexists _, _, _, W; eauto].
      pose proof (nth_forall _ _ _ _ F Es) as Fs.
      destruct op as [k o|k v|k|k|m].
      + destruct (Ext i q s k o Es) as (r & st' & s' & W' & E & P). rewrite E. cbn [bind]. eexists _, _, _, W'. eauto.
      + unfold ssk_put. destruct (Ext i q s k (Some v) Es) as (r & st' & s' & W' & E & P). rewrite E. cbn [bind]. eexists _, _, _, W'. eauto.
      + unfold ssk_rem. destruct (Ext i q s k None Es) as (r & st' & s' & W' & E & P). rewrite E. cbn [bind]. eexists _, _, _, W'. eauto.
      + unfold ssk_get. destruct (find_total st W s k Sh Fs) as (h & x & cp & -> & _). cbn [bind]. eexists _, _, _, W. eauto.
      + eexists _, _, _, W. split; [reflexivity|]. split; [exact Sh|]. apply update_forall; [|exact F].
        destruct Fs as [A B]. split; auto. }
  destruct X as (r & st' & hs' & W' & E & A & B). rewrite E. cbn [bind].
  destruct (IH st' hs' W') as (rs & st'' & E2); auto.
  { intros len n I. apply (SL len n). now right. }
  rewrite E2. cbn [bind]. eauto.
Qed.

Theorem never_panics st (ops : list (h_op K V)) : same_length L ops ->
  exists rs st', h_run keqb my_hash debug st [] ops = Ok (rs, st').
Proof. intros SL. apply (h_run_total ops st [] (fun _ => False)); auto. intros a []. Qed.

End NoPanic.

(** ** One handle with names of its own *)

Lemma alone_writes q (ops : list (map_op K V)) : forall n c, ~ In n (archived ops) -> NoDup (archived ops) ->
  NoDup (h_writes [(n, c)] (map (HDo 0 q) ops)) /\
  forall a, In a (h_writes [(n, c)] (map (HDo 0 q) ops)) ->
    exists m d, a = (q, NPair m (NNum d)) /\ (m = n /\ (c <= d)%N \/ In m (archived ops)).
Proof.
  induction ops as [|op ops IH]; intros n c Nn ND; [split; [constructor|intros a []]|].
  cbn [map h_writes h_write_step nth_error].
  assert (Wr : archived (op :: ops) = archived ops ->
    NoDup ([(q, NPair n (NNum c))] ++ h_writes (update 0 (n, (c + 1)%N) [(n, c)]) (map (HDo 0 q) ops)) /\
    forall a, In a ([(q, NPair n (NNum c))] ++ h_writes (update 0 (n, (c + 1)%N) [(n, c)]) (map (HDo 0 q) ops)) ->
    exists m d, a = (q, NPair m (NNum d)) /\ (m = n /\ (c <= d)%N \/ In m (archived (op :: ops)))).
  { intros Ea. rewrite Ea in *. cbn [update app]. destruct (IH n (c + 1)%N Nn ND) as [A B]. split.
    - constructor; [|exact A]. intros I. destruct (B _ I) as (m & d & E & [[Em Hd]|Hm]).
      + inversion E. lia.
      + inversion E; subst. contradiction.
    - intros a [<-|I].
      + exists n, c. split; [reflexivity|]. left. split; [reflexivity|lia].
      + destruct (B a I) as (m & d & E & [[Em Hd]|Hm]); exists m, d; (split; [exact E|]); [left|now right].
        split; [exact Em|lia]. }
  assert (Sk : archived (op :: ops) = archived ops ->
    NoDup ([] ++ h_writes [(n, c)] (map (HDo 0 q) ops)) /\
    forall a, In a ([] ++ h_writes [(n, c)] (map (HDo 0 q) ops)) ->
    exists m d, a = (q, NPair m (NNum d)) /\ (m = n /\ (c <= d)%N \/ In m (archived (op :: ops)))).
  { intros Ea. rewrite Ea in *. cbn [app]. apply IH; assumption. }
  destruct op as [k o|k v|k|k|m]; cbn [extends]; try (apply Wr; reflexivity); [apply Sk; reflexivity|].
  cbn [update app]. change (archived (MArchive m :: ops)) with (m :: archived ops) in *.
  inversion ND as [|? ? Nm ND']; subst. destruct (IH m 0%N Nm ND') as [A B]. split; [exact A|].
  intros a I. destruct (B a I) as (m' & d & E & H). exists m', d. split; [exact E|]. right.
  destruct H as [[-> _]|H]; [now left|now right].
Qed.

Theorem alone_fresh len n q (ops : list (map_op K V)) : NoDup (n :: archived ops) -> NoDup (h_writes [] (alone len n q ops)).
Proof.
  intros H. inversion H as [|? ? A B]; subst. apply (alone_writes q ops n 1%N A B).
Qed.

Lemma alone_spec_run (h : @history K V) q ops : h_spec_run keqb [h] (map (HDo 0 q) ops) = map_spec_run keqb h ops.
Proof.
  revert h; induction ops as [|op ops IH]; intros h; [reflexivity|]. cbn [map h_spec_run map_spec_run h_spec_step nth_error].
  destruct (map_spec_step keqb h op) as [r h']. cbn [update]. now rewrite IH.
Qed.

Theorem alone_answers st len n q (ops : list (map_op K V)) : 0 < len -> (debug = true -> len < 64) ->
  NoDup (n :: archived ops) ->
  exists st', h_run keqb my_hash debug st [] (alone len n q ops) = Ok (None :: map_spec_run keqb [] ops, st').
Proof.
  intros A B ND. destruct (fresh_answers st (alone len n q ops)) as (st' & E).
  - intros l m [[= <- <-]|I]; [auto|]. apply in_map_iff in I. destruct I as (x & [=] & _).
  - now apply alone_fresh.
  - exists st'. rewrite E. cbn [alone h_spec_run h_spec_step app]. now rewrite alone_spec_run.
Qed.

End Proofs.
