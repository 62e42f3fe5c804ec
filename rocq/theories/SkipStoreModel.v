(** * src/skiplist.rs over a mutable store of named cells.

    SkiplistModel.v reads a cell of the skiplist as its content. Here a path refers
    to other paths by the addresses of their cells, and [cell(n, v)] overwrites the
    cell [n] of the namespace in force (StoreModel.v): what is there already is lost,
    also for those that refer to it. Simplifications: no change propagation; reading
    an absent cell panics; [cntr] does not wrap around. *)

From Verif Require Import Base StoreModel SkiplistModel.

(** Path, src/skiplist.rs:27-32, with the addresses of cells for [Art]. *)
Inductive spath (K V : Type) : Type :=
| SPath (hash : N) (kvs : list (K * option V)) (paths : list (option loc)).
Arguments SPath {K V} hash kvs paths.

Definition cells (K V : Type) : Type := loc -> option (spath K V).

Section SkipStore.
Context {K V : Type} (keqb : K -> K -> bool) (my_hash : K -> N).
(** As in SkiplistModel.v. *)
Context (debug : bool).

Notation spath := (spath K V).
Notation cells := (cells K V).

Definition sp_hash (p : spath) : N := match p with SPath h _ _ => h end.
Definition sp_kvs (p : spath) : list (K * option V) := match p with SPath _ l _ => l end.
Definition sp_paths (p : spath) : list (option loc) := match p with SPath _ _ l => l end.

(** Skiplist, src/skiplist.rs:36-42. Its [Clone] (line 35) copies the address. *)
Record sskiplist : Type := SSkiplist {
  s_path_len : nat;
  s_name : name;
  s_cntr : N;
  s_head : option loc }.

(** [cell(n, v)] in the namespace [q], src/skiplist.rs:269-272. *)
Definition put_cell (st : cells) (a : loc) (p : spath) : cells :=
  fun b => if loc_eq_dec b a then Some p else st b.

(** ObsRes, src/skiplist.rs:90-107. *)
Record s_obs_res : Type := SObsRes {
  so_paths : list (option loc);
  so_next : option loc;
  so_kvs : option (list (K * option V)) }.

(** The copying loop of build_path_step, src/skiplist.rs:125-127. *)
Fixpoint s_copy_paths (p : spath) (n i : nat) : res (list (option loc)) :=
  match n with
  | O => Ok []
  | S n' =>
      do e <- unwrap "called Option::unwrap on None" (nth_error (sp_paths p) i);
      do l <- s_copy_paths p n' (S i);
      Ok (e :: l)
  end.

(** The loop 'matching_bits of build_path_step, src/skiplist.rs:130-153; [art] is
    the cell of [p]. *)
Fixpoint s_match_bits (art : loc) (p : spath) (n i : nat) (key_bits hsh_bits : N)
    (acc : list (option loc)) : res s_obs_res :=
  match n with
  | O => Panic "no more bits; this shouldn't happen"
  | S n' =>
      do oap <- unwrap "called Option::unwrap on None" (nth_error (sp_paths p) i);
      if (N.land key_bits 1 =? N.land hsh_bits 1)%N
      then s_match_bits art p n' (S i) (N.shiftr key_bits 1) (N.shiftr hsh_bits 1) (acc ++ [oap])
      else
        match oap with
        | None => Ok (SObsRes (acc ++ Some art :: repeat None n') None None)
        | Some a => Ok (SObsRes (acc ++ [Some art]) (Some a) None)
        end
  end.

(** build_path_step, src/skiplist.rs:110-155. *)
Definition s_build_path_step (art : loc) (p : spath) (len : nat) (key_bits0 : N) (key_biti : nat)
  : res s_obs_res :=
  do key_bits <- shr debug key_bits0 key_biti;
  do hsh_bits <- shr debug (sp_hash p) key_biti;
  if (hsh_bits =? key_bits)%N
  then do l <- s_copy_paths p (len - key_biti) key_biti; Ok (SObsRes l None (Some (sp_kvs p)))
  else s_match_bits art p (len - key_biti) key_biti key_bits hsh_bits [].

(** build_path_rec, src/skiplist.rs:157-191: [force_map] reads the cell [cur]. *)
Fixpoint s_build_path_rec (st : cells) (fuel : nat) (len : nat) (key : N) (cur : loc)
    (cpaths : list (option loc)) : res (option (list (K * option V)) * list (option loc)) :=
  match fuel with
  | O => Fuel
  | S fuel' =>
      do p <- unwrap "force: no such cell" (st cur);
      do r <- s_build_path_step cur p len key (length cpaths);
      let cpaths' := cpaths ++ so_paths r in
      match so_kvs r with
      | Some kvs =>
          do _ <- assert "assert_eq cursor.paths.len path_len" (length cpaths' =? len);
          Ok (Some kvs, cpaths')
      | None =>
          match so_next r with
          | Some next => s_build_path_rec st fuel' len key next cpaths'
          | None =>
              do _ <- assert "assert_eq cursor.paths.len path_len" (length cpaths' =? len);
              Ok (None, cpaths')
          end
      end
  end.

(** emp, src/skiplist.rs:218-225. *)
Definition ssk_emp (len : nat) (n : name) : sskiplist := SSkiplist len n 1 None.

(** archive, src/skiplist.rs:227-230. *)
Definition ssk_archive (s : sskiplist) (n : name) : sskiplist :=
  SSkiplist (s_path_len s) n 0 (s_head s).

(** The lookup shared by ext (src/skiplist.rs:233-240) and get (286-293). *)
Definition ssk_find (st : cells) (s : sskiplist) (k : K)
  : res (N * option (list (K * option V)) * list (option loc)) :=
  do mask <- make_mask (s_path_len s);
  let k_hash := N.land (my_hash k) mask in
  match s_head s with
  | None => Ok (k_hash, None, [])
  | Some a =>
      do ' (kvs, cp) <- s_build_path_rec st (s_path_len s + 2) (s_path_len s) k_hash a [];
      Ok (k_hash, kvs, cp)
  end.

(** fill_empty, src/skiplist.rs:73-77. *)
Definition s_fill_empty (l : list (option loc)) (bits : nat) : list (option loc) :=
  l ++ repeat None (bits - length l).

(** ext, src/skiplist.rs:232-275, in the namespace [q]; the loop over the old pairs
    is [ext_pair] of SkiplistModel.v. *)
Definition ssk_ext (q : list name) (st : cells) (s : sskiplist) (k : K) (opv : option V)
  : res (option V * cells * sskiplist) :=
  do ' (k_hash, old_kvs, cp) <- ssk_find st s k;
  let '(new_kvs, opv_old, cp') :=
    match old_kvs with
    | Some kvs =>
        let '(new_kvs, opv_old, found) := fold_left (ext_pair keqb k opv) kvs ([], None, false) in
        (if found then new_kvs else new_kvs ++ [(k, opv)], opv_old, cp)
    | None => ([(k, opv)], None, s_fill_empty cp (s_path_len s))
    end in
  let a : loc := (q, NPair (s_name s) (NNum (s_cntr s))) in
  Ok (match opv_old with Some o => o | None => None end,
      put_cell st a (SPath k_hash new_kvs cp'),
      SSkiplist (s_path_len s) (s_name s) (s_cntr s + 1) (Some a)).

(** rem and put, src/skiplist.rs:277-283. *)
Definition ssk_rem (q : list name) (st : cells) (s : sskiplist) (k : K) : res (option V * cells * sskiplist) :=
  ssk_ext q st s k None.
Definition ssk_put (q : list name) (st : cells) (s : sskiplist) (k : K) (v : V) : res (cells * sskiplist) :=
  do ' (_, st', s') <- ssk_ext q st s k (Some v); Ok (st', s').

(** get, src/skiplist.rs:285-303; the search for the key is [assoc] of
    SkiplistModel.v. *)
Definition ssk_get (st : cells) (s : sskiplist) (k : K) : res (option V) :=
  do ' (_, kvs, _) <- ssk_find st s k;
  Ok (match kvs with Some l => assoc keqb k l | None => None end).

End SkipStore.
