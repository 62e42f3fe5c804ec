(** * Memoised unique_elms over stores (C108). *)

From Verif Require Import Base Spec SpecRaz LevelTreeModel TreeSpec RazMetaModel RazModel RazView RazScripts RazReach RazExamples
  MemoModel MemoSpec MemoProofs MemoHistory StoreModel StoreSpec StoreScripts StoreProofs IncModel SkiplistModel SkipStoreModel SkipStoreSpec UniqueStoreModel UniqueStoreProofs UniqueIncModel UniqueIncSpec UniqueIncProofs PropMemo PropInc.

(** C108. Run after run on handles in stores of trees, over any cells of skiplists and with
    the table kept, unique_elms leaves the handle and the cells that it leaves when run from
    scratch, ... *)
Theorem C108_unique_elms_inc : forall (E M : Type) (RM : RazMeta E M) (eqD : forall x y : tree_data E M, {x = y} + {x <> y})
    (eqE : forall x y : E, {x = y} + {x <> y}) (q : here) (my_hash : E -> N) (debug : bool) free pathlen (ts : list (raz_tree E M)),
  0 < pathlen -> (debug = true -> pathlen < 64) ->
  Forall (fun t => tree_reached free t /\ NoDup (NUnit :: NStr "start" :: named_marks (contents t))) ts ->
  exists k0, forall k (xs : list (store (level * list E) (tree_data E M) * cells E unit * sraz_tree E M)), k0 <= k ->
  Forall2 (fun c t => tree_reads (fst (fst c)) (snd c) t) xs ts -> exists ys tab lgs,
    h_runs (unique_elms_inc eqD eqE my_hash debug k pathlen) xs no_hentries = Ok (ys, tab, lgs) /\
    Forall2 (fun ct y => exists st', unique_elms_store (eqb_of eqE) my_hash debug pathlen q (snd (fst (fst ct))) (snd ct) = Ok (st', snd y) /\
        forall a, fst y a = st' a) (combine xs ts) ys /\
    Forall2 (fun t y => forall e, ssk_get (eqb_of eqE) my_hash debug (fst y) (snd y) e =
      Ok (if existsb (eqb_of eqE e) (elts (contents t)) then Some tt else None)) ts ys.
Proof. intros E M RM eqD eqE q. exact (unique_inc eqD eqE (Nsp := q)). Qed.
Print Assumptions C108_unique_elms_inc.

(** ** Examples: the trees of C80, each run over the cells that the run before left. *)
Definition uq := unique_elms_inc (Nsp := FOLD) eqC Nat.eq_dec N.of_nat true 80 4.
Fixpoint in_turn (xs : list (store (level * list nat) (tree_data nat count) * sraz_tree nat count)) (cs : cells nat unit) tab :=
  match xs with
  | [] => []
  | (st, h) :: r =>
      match uq h st cs tab with
      | Ok (s, cs', _, tab', _) => (st, cs, h) :: in_turn r cs' tab'
      | _ => []
      end
  end.
Definition c108_xs := in_turn [x0; x1; x2; x2; x0] (fun _ => None) no_hentries.
Definition c108_has (ks : list nat) : list (list nat) :=
  match h_runs uq c108_xs no_hentries with
  | Ok (ys, _, _) =>
      map (fun y => filter (fun e => match ssk_get Nat.eqb N.of_nat true (fst y) (snd y) e with Ok (Some _) => true | _ => false end) ks) ys
  | _ => []
  end.
Definition c108_work : list nat :=
  match h_runs uq c108_xs no_hentries with Ok (_, _, lgs) => map (@length _) lgs | _ => [] end.
Lemma in_turn_inputs : forall xs cs tab, length (in_turn xs cs tab) = length xs -> map (fun c => (fst (fst c), snd c)) (in_turn xs cs tab) = xs.
Proof.
  induction xs as [|[st h] xs IH]; intros cs tab H; [reflexivity|]. cbn [in_turn] in *.
  destruct (uq h st cs tab) as [[[[[s cs'] tr] tab'] lg]| |]; try discriminate. cbn [map length fst snd] in *. f_equal. apply IH. now injection H.
Qed.
(** 13 nodes at first, then 7 and 9; one when nothing has changed. *)
Example C108_case : Forall2 (fun c t => tree_reads (fst (fst c)) (snd c) t) c108_xs [memo_t0; memo_t1; memo_t2; memo_t2; memo_t0] /\
  Forall (fun t => tree_reached false t /\ NoDup (NUnit :: NStr "start" :: named_marks (contents t))) [memo_t0; memo_t1; memo_t2; memo_t2; memo_t0] /\
  c108_has [1; 2; 3; 4; 5; 6; 7; 8; 9; 10] =
    [[1; 2; 3; 4; 5; 6; 7]; [1; 2; 3; 4; 5; 6; 7; 8]; [1; 2; 3; 4; 5; 6; 7; 8; 9]; [1; 2; 3; 4; 5; 6; 7; 8; 9]; [1; 2; 3; 4; 5; 6; 7]] /\
  c108_work = [13; 7; 9; 1; 7].
Proof.
  split; [|split; [|split; vm_compute; reflexivity]].
  - assert (X : Forall2 (fun c t => tree_reads (fst c) (snd c) t) (map (fun c => (fst (fst c), snd c)) c108_xs) [memo_t0; memo_t1; memo_t2; memo_t2; memo_t0]).
    { unfold c108_xs. rewrite in_turn_inputs by (vm_compute; reflexivity).
      repeat (apply Forall2_cons; [split; [vm_compute; reflexivity|apply (read_gives _ _ _ 80); vm_compute; reflexivity]|]). apply Forall2_nil. }
    remember [memo_t0; memo_t1; memo_t2; memo_t2; memo_t0] as ts eqn:Et. clear Et. revert ts X.
    induction c108_xs as [|c l IH]; intros ts X; inversion X; subst; constructor; auto.
  - pose proof memo_reached as M. inversion M as [|? ? M2 M']; subst. inversion M' as [|? ? M1 M2']; subst. inversion M2' as [|? ? M0 _]; subst.
    repeat (apply Forall_cons; [split; [assumption|vm_compute; repeat (constructor; [simpl; intuition discriminate|]); constructor]|]). apply Forall_nil.
Qed.
