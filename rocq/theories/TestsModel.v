(** * Model of the repository's randomised unit tests.

    The values drawn are arguments, and the constants of a test are parameters:
    1000 elements become the number of words given, and so on. A failed
    [assert_eq!] and an [unwrap] of [None] are panics. *)

From Verif Require Import Base StackModel AStackModel LevelTreeModel TreeCursorModel RazMetaModel
  RazModel LevelGenModel SkiplistModel.

#[local] Open Scope N_scope.

(** [a % b] on [usize]. *)
Definition usize_rem (a b : N) : res N :=
  if b =? 0 then Panic "attempt to calculate the remainder with a divisor of zero" else Ok (a mod b).

(** ** test_names_many_edits, src/raz.rs:1388-1424 *)

(** src/raz.rs:1394-1397: [words] are the numbers drawn for the levels. *)
Fixpoint fill_named (r : raz N count) (i : N) (words : list N) : raz N count :=
  match words with
  | [] => r
  | w :: ws =>
      let r := snd (push_left r i) in
      fill_named (archive_left r (gen_branch_level w) (Some (NNum i))) (i + 1) ws
  end.

(** The closures of src/raz.rs:1400-1404 and :1416-1420. *)
Definition collect_names (t : raz_tree N count) : list (option name) :=
  rt_fold_lr_meta t [] (fun a _ => a) (fun a p => a ++ [snd p]).

(** src/raz.rs:1406-1414: [n] is the 1000 of the remainder; a draw is the number
    for the position and the boolean. *)
Fixpoint edit_named (n : N) (t : raz_tree N count) (i : N) (draws : list (N * bool))
    : res (raz_tree N count) :=
  match draws with
  | [] => Ok t
  | (w, b) :: ds =>
      do p <- usize_rem w n;
      do o <- rt_focus t p;
      do r <- unwrap "called `Option::unwrap()` on a `None` value" o;
      let r := snd (if b : bool then push_left r i else push_right r i) in
      do t <- unfocus r;
      edit_named n t (i + 1) ds
  end.

(** The whole test; the result is the list compared. *)
Definition test_names_many_edits (words : list N) (draws : list (N * bool)) : res (list (option name)) :=
  do t <- unfocus (fill_named raz_new 0 words);
  let original_names := collect_names t in
  do t <- edit_named (N.of_nat (length words)) t 0 draws;
  let new_names := collect_names t in
  do _ <- assert "assertion failed: `(left == right)`"
            (if list_eq_dec oname_eq_dec original_names new_names then true else false);
  Ok new_names.

(** ** test_name_indexes, src/raz.rs:1427-1449 *)

(** src/raz.rs:1433-1438: [gauge] is the 10, [word i] the number drawn by
    [inc_level] in round [i], [todo] the rounds left of the 1000. *)
Fixpoint fill_indexed (gauge : N) (word : N -> N) (r : raz N names) (i : N) (todo : nat)
    : res (raz N names) :=
  match todo with
  | O => Ok r
  | S k =>
      let r := snd (push_left r i) in
      do m <- usize_rem i gauge;
      let r := if m =? 0 then archive_left r (gen_branch_level (word i)) (Some (NNum i)) else r in
      fill_indexed gauge word r (i + 1) k
  end.

(** src/raz.rs:1443-1448, one round: [points] is the 100. *)
Definition find_indexed (gauge points : N) (t : raz_tree N names) (w : N) : res N :=
  do m <- usize_rem w points;
  let val := m * gauge in
  do o <- rt_focus t (PCenter (NPair (NNum val) (NStr "tree")));
  do r <- unwrap "called `Option::unwrap()` on a `None` value" o;
  do x <- peek_left r;
  match x with
  | Some v => if v =? val then Ok val else Panic "assertion failed: `(left == right)`"
  | None => Panic "assertion failed: `(left == right)`"
  end.
Fixpoint find_all_indexed (gauge points : N) (t : raz_tree N names) (ws : list N) : res (list N) :=
  match ws with
  | [] => Ok []
  | w :: ws =>
      do v <- find_indexed gauge points t w;
      do vs <- find_all_indexed gauge points t ws;
      Ok (v :: vs)
  end.

(** The whole test for [gauge * points] elements; the result is the list of
    values looked for. *)
Definition test_name_indexes (gauge points : N) (word : N -> N) (ws : list N) : res (list N) :=
  do r <- fill_indexed gauge word raz_new 0 (N.to_nat (gauge * points));
  do t <- unfocus r;
  find_all_indexed gauge points t ws.

(** ** skiplist_vs_hashmap, src/skiplist.rs:306-344 *)

(** [HashMap::insert] and [HashMap::get] of the standard library. *)
Definition hm_insert (m : list (N * N)) (k v : N) : list (N * N) :=
  (k, v) :: filter (fun p => negb (fst p =? k)) m.
Definition hm_get (m : list (N * N)) (k : N) : option N :=
  option_map snd (find (fun p => fst p =? k) m).

(** [==] on [Option<usize>]. *)
Definition opt_eqb (a b : option N) : bool :=
  match a, b with
  | Some x, Some y => x =? y
  | None, None => true
  | _, _ => false
  end.

(** src/skiplist.rs:321-343: a draw is the three numbers; [numkeys] and [gauge] as
    in the source, [gauged] being true. Results are the answers compared. *)
Fixpoint skip_rounds (hash : N -> N) (debug : bool) (numkeys gauge : N) (m : list (N * N))
    (t : skiplist N N) (i : N) (draws : list (N * N * N)) : res (list (option N)) :=
  match draws with
  | [] => Ok []
  | (d1, d2, d3) :: ds =>
      do r1 <- usize_rem d1 numkeys;
      do r2 <- usize_rem d2 numkeys;
      do g <- usize_rem i gauge;
      let m := hm_insert m r1 r2 in
      do t <- sk_put N.eqb hash debug t r1 r2;
      let t := if g =? 0 then sk_archive t (NNum i) else t in
      do r3 <- usize_rem d3 (numkeys * 2);
      do x <- sk_get N.eqb hash debug t r3;
      do _ <- assert "assertion failed: `(left == right)`" (opt_eqb (hm_get m r3) x);
      do xs <- skip_rounds hash debug numkeys gauge m t (i + 1) ds;
      Ok (x :: xs)
  end.
(** The whole test: [len] is the 8. *)
Definition test_skiplist_vs_hashmap (hash : N -> N) (debug : bool) (len : nat) (numkeys gauge : N)
    (draws : list (N * N * N)) : res (list (option N)) :=
  skip_rounds hash debug numkeys gauge [] (sk_emp len NUnit) 0 draws.
