(** * Model of src/skiplist.rs.

    [Art] is its content and [force_map] a call (DESIGN.md, section 2), so the
    names of the cells (lines 269-272: [name], [cntr]) are kept but not used for
    storage here; [cntr] does not wrap around. [K: Eq] is a boolean equality, [my_hash] (lines 14-20) an
    arbitrary function. A 64-bit target is assumed. *)

From Verif Require Import Base.

(** Path, src/skiplist.rs:27-32. *)
Inductive path (K V : Type) : Type :=
| Path (hash : N) (kvs : list (K * option V)) (paths : list (option (path K V))).
Arguments Path {K V} hash kvs paths.

Section Skiplist.
Context {K V : Type} (keqb : K -> K -> bool) (my_hash : K -> N).
(** [true]: a debug build, where shifting by 64 or more panics; [false]: a
    release build, where the shift amount is taken modulo 64. *)
Context (debug : bool).

Notation path := (path K V).

Definition p_hash (p : path) : N := match p with Path h _ _ => h end.
Definition p_kvs (p : path) : list (K * option V) := match p with Path _ l _ => l end.
Definition p_paths (p : path) : list (option path) := match p with Path _ _ l => l end.

(** Skiplist, src/skiplist.rs:36-42. *)
Record skiplist : Type := Skiplist {
  path_len : nat;
  sk_name : name;
  cntr : N;
  head : option path }.

(** make_mask, src/skiplist.rs:51-59. [mask <<= 1] drops the top bit. *)
Fixpoint mask_loop (n : nat) (mask : N) : N :=
  match n with
  | O => mask
  | S n' => mask_loop n' (N.lor ((2 * mask) mod usize_mod) 1)
  end.
Definition make_mask (len : nat) : res N :=
  do _ <- assert "assert len > 0" (0 <? len);
  Ok (mask_loop len 0).

(** [>>] on usize. *)
Definition shr (a : N) (n : nat) : res N :=
  if n <? 64 then Ok (N.shiftr a (N.of_nat n))
  else if debug then Panic "attempt to shift right with overflow"
  else Ok (N.shiftr a (N.of_nat (n mod 64))).

(** ObsRes, src/skiplist.rs:90-107. *)
Record obs_res : Type := ObsRes {
  o_paths : list (option path);
  o_next : option path;
  o_kvs : option (list (K * option V)) }.

(** The copying loop of build_path_step, src/skiplist.rs:125-127: [n] entries from
    index [i]. *)
Fixpoint copy_paths (p : path) (n i : nat) : res (list (option path)) :=
  match n with
  | O => Ok []
  | S n' =>
      do e <- unwrap "called Option::unwrap on None" (nth_error (p_paths p) i);
      do l <- copy_paths p n' (S i);
      Ok (e :: l)
  end.

(** The loop 'matching_bits of build_path_step, src/skiplist.rs:130-153: [n]
    iterations left, at index [i]; [acc] is cur_paths. *)
Fixpoint match_bits (p : path) (n i : nat) (key_bits hsh_bits : N) (acc : list (option path)) : res obs_res :=
  match n with
  | O => Panic "no more bits; this shouldn't happen"
  | S n' =>
      do oap <- unwrap "called Option::unwrap on None" (nth_error (p_paths p) i);
      if (N.land key_bits 1 =? N.land hsh_bits 1)%N
      then match_bits p n' (S i) (N.shiftr key_bits 1) (N.shiftr hsh_bits 1) (acc ++ [oap])
      else
        match oap with
        | None => Ok (ObsRes (acc ++ Some p :: repeat None n') None None)
        | Some a => Ok (ObsRes (acc ++ [Some p]) (Some a) None)
        end
  end.

(** build_path_step, src/skiplist.rs:110-155; [art] is [p] itself. *)
Definition build_path_step (p : path) (len : nat) (key_bits0 : N) (key_biti : nat) : res obs_res :=
  do key_bits <- shr key_bits0 key_biti;
  do hsh_bits <- shr (p_hash p) key_biti;
  if (hsh_bits =? key_bits)%N
  then do l <- copy_paths p (len - key_biti) key_biti; Ok (ObsRes l None (Some (p_kvs p)))
  else match_bits p (len - key_biti) key_biti key_bits hsh_bits [].

(** build_path_rec, src/skiplist.rs:157-191: returns the found key-values and the
    cursor's paths. Every further round has at least one path more in the cursor,
    [fuel] bounds the number of rounds. *)
Fixpoint build_path_rec (fuel : nat) (len : nat) (key : N) (cur : path) (cpaths : list (option path))
  : res (option (list (K * option V)) * list (option path)) :=
  match fuel with
  | O => Fuel
  | S fuel' =>
      do r <- build_path_step cur len key (length cpaths);
      let cpaths' := cpaths ++ o_paths r in
      match o_kvs r with
      | Some kvs =>
          do _ <- assert "assert_eq cursor.paths.len path_len" (length cpaths' =? len);
          Ok (Some kvs, cpaths')
      | None =>
          match o_next r with
          | Some next => build_path_rec fuel' len key next cpaths'
          | None =>
              do _ <- assert "assert_eq cursor.paths.len path_len" (length cpaths' =? len);
              Ok (None, cpaths')
          end
      end
  end.

(** emp, src/skiplist.rs:218-225. *)
Definition sk_emp (len : nat) (n : name) : skiplist := Skiplist len n 1 None.

(** archive, src/skiplist.rs:227-230. *)
Definition sk_archive (s : skiplist) (n : name) : skiplist := Skiplist (path_len s) n 0 (head s).

(** The lookup shared by ext (src/skiplist.rs:233-240) and get (286-293). *)
Definition sk_find (s : skiplist) (k : K) : res (N * option (list (K * option V)) * list (option path)) :=
  do mask <- make_mask (path_len s);
  let k_hash := N.land (my_hash k) mask in
  match head s with
  | None => Ok (k_hash, None, [])
  | Some p =>
      do ' (kvs, cp) <- build_path_rec (path_len s + 2) (path_len s) k_hash p [];
      Ok (k_hash, kvs, cp)
  end.

(** The loop over the old pairs in ext, src/skiplist.rs:246-254; state: new_kvs,
    opv_old, found_key. *)
Definition ext_pair (k : K) (opv : option V) (st : list (K * option V) * option (option V) * bool)
    (e : K * option V) : list (K * option V) * option (option V) * bool :=
  let '(new_kvs, opv_old, found) := st in
  let '(k0, opv0) := e in
  if keqb k k0 then (new_kvs ++ [(k0, opv)], Some opv0, true)
  else (new_kvs ++ [(k0, opv0)], opv_old, found).

(** fill_empty, src/skiplist.rs:73-77. *)
Definition fill_empty (l : list (option path)) (bits : nat) : list (option path) :=
  l ++ repeat None (bits - length l).

(** ext, src/skiplist.rs:232-275. *)
Definition sk_ext (s : skiplist) (k : K) (opv : option V) : res (option V * skiplist) :=
  do ' (k_hash, old_kvs, cp) <- sk_find s k;
  let '(new_kvs, opv_old, cp') :=
    match old_kvs with
    | Some kvs =>
        let '(new_kvs, opv_old, found) := fold_left (ext_pair k opv) kvs ([], None, false) in
        (if found then new_kvs else new_kvs ++ [(k, opv)], opv_old, cp)
    | None => ([(k, opv)], None, fill_empty cp (path_len s))
    end in
  Ok (match opv_old with Some o => o | None => None end,
      Skiplist (path_len s) (sk_name s) (cntr s + 1) (Some (Path k_hash new_kvs cp'))).

(** rem, src/skiplist.rs:277-279. *)
Definition sk_rem (s : skiplist) (k : K) : res (option V * skiplist) := sk_ext s k None.

(** put, src/skiplist.rs:281-283. *)
Definition sk_put (s : skiplist) (k : K) (v : V) : res skiplist :=
  do ' (_, s') <- sk_ext s k (Some v); Ok s'.

(** The search for the key in get, src/skiplist.rs:296-298. *)
Fixpoint assoc (k : K) (l : list (K * option V)) : option V :=
  match l with
  | [] => None
  | (k0, o) :: l' => if keqb k k0 then o else assoc k l'
  end.

(** get, src/skiplist.rs:285-303. *)
Definition sk_get (s : skiplist) (k : K) : res (option V) :=
  do ' (_, kvs, _) <- sk_find s k;
  Ok (match kvs with Some l => assoc k l | None => None end).

End Skiplist.
Arguments skiplist : clear implicits.
Arguments Skiplist {K V}.
Arguments path_len {K V}.
Arguments sk_name {K V}.
Arguments cntr {K V}.
Arguments head {K V}.
Arguments sk_emp {K V}.
Arguments sk_archive {K V}.
