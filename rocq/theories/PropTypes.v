(** * Properties of levels and element types (C87, C88). *)

From Verif Require Import Base TypesModel TypesProofs.

(** C87. [l_inc] is the next greater level and [l_dec] the next lesser one, below and
    above the ends, and they undo each other. [top] is 255 for [NegBin] and the greatest
    [usize] for [usize]. *)
Theorem C87_inc : forall debug top l, (l < l_max top)%N ->
  exists l', l_inc debug top l = Ok l' /\ (l < l')%N /\ (l' <= l_max top)%N /\
    (forall k, (l < k)%N -> (l' <= k)%N) /\ l_dec debug top l' = Ok l.
Proof. exact inc_next. Qed.
Print Assumptions C87_inc.

Theorem C87_dec : forall debug top l, (l_min top < l)%N -> (l <= l_max top)%N ->
  exists l', l_dec debug top l = Ok l' /\ (l' < l)%N /\ (l_min top <= l')%N /\
    (forall k, (k < l)%N -> (k <= l')%N) /\ l_inc debug top l' = Ok l.
Proof. exact dec_next. Qed.
Print Assumptions C87_dec.

(** At the ends a debug build panics and a release build goes to the other end, so
    there "next greater" and "next lesser" fail. *)
Theorem C87_next_greater_refuted : forall debug top,
  l_inc debug top (l_max top) = (if debug then Panic "attempt to add with overflow" else Ok (l_min top)) /\
  l_dec debug top (l_min top) = (if debug then Panic "attempt to subtract with overflow" else Ok (l_max top)).
Proof. intros debug top. exact (conj (inc_max debug top) (dec_min debug top)). Qed.
Print Assumptions C87_next_greater_refuted.

Example C87_case : (7 < l_max negbin_top)%N /\ l_inc true negbin_top 7 = Ok 8%N /\ l_dec true usize_max 7 = Ok 6%N /\
  l_inc false negbin_top 255 = Ok 0%N /\ l_dec false usize_max 0 = Ok usize_max /\
  l_inc true negbin_top 255 = Panic "attempt to add with overflow".
Proof. repeat split. Qed.

(** C88. The generated values are below 100 (10000). *)
Theorem C88_range : forall word, (gen_small word < 100)%N /\ (gen_10k word < 10000)%N.
Proof. intros word. exact (conj (N.mod_lt word 100 ltac:(discriminate)) (N.mod_lt word 10000 ltac:(discriminate))). Qed.
Print Assumptions C88_range.

(** Value [r] comes from the words [r + 100 q] with [q] below 2^64 / 100, and one more if
    [r < 16]; every such number is a word. *)
Theorem C88_small : forall r, (r < 100)%N -> let n := (184467440737095516 + (if r <? 16 then 1 else 0))%N in
  (forall word, (word < usize_mod)%N -> (gen_small word = r <-> exists q, word = r + 100 * q /\ q < n)%N) /\
  (forall q, (q < n)%N -> (r + 100 * q < usize_mod)%N).
Proof.
  intros r R. exact (conj (words_of 100 usize_mod r eq_refl R) (words_below 100 usize_mod r eq_refl R)).
Qed.
Print Assumptions C88_small.

Theorem C88_10k : forall r, (r < 10000)%N -> let n := (1844674407370955 + (if r <? 1616 then 1 else 0))%N in
  (forall word, (word < usize_mod)%N -> (gen_10k word = r <-> exists q, word = r + 10000 * q /\ q < n)%N) /\
  (forall q, (q < n)%N -> (r + 10000 * q < usize_mod)%N).
Proof.
  intros r R. exact (conj (words_of 10000 usize_mod r eq_refl R) (words_below 10000 usize_mod r eq_refl R)).
Qed.
Print Assumptions C88_10k.

(** Adding up generated values does not overflow for up to 2^64 / 99 of them. *)
Theorem C88_sum : forall debug (l : list N), Forall (fun x => x < 100)%N l -> (99 * N.of_nat (length l) <= usize_max)%N ->
  fold_left (fun s x => do s <- s; gen_add debug s x) l (Ok 0%N) = Ok (fold_left N.add l 0%N).
Proof. exact sum_draws. Qed.
Print Assumptions C88_sum.

(** An [Elm] hands its number to the hasher a hundred times; different elements hand
    over different words. *)
Theorem C88_hash : forall e e' st, elm_hash e st = st ++ repeat e 100 /\ (elm_hash e st = elm_hash e' st <-> e = e').
Proof. intros e e' st. exact (conj (hash_words e st) (hash_eq e e' st)). Qed.
Print Assumptions C88_hash.

Example C88_case : gen_small 12345 = 45%N /\ gen_10k 123456 = 3456%N /\
  Forall (fun x => x < 100)%N [99; 98; 1]%N /\ (99 * N.of_nat (length [99; 98; 1]%N) <= usize_max)%N /\
  gen_add false usize_max 3 = Ok 2%N /\ gen_add true usize_max 3 = Panic "attempt to add with overflow".
Proof. split; [reflexivity|]. split; [reflexivity|]. split; [repeat constructor|]. split; [discriminate|]. split; reflexivity. Qed.
