(** * Properties of the adder example (C57..C60). *)

From Verif Require Import Base Spec SpecRaz StackModel AStackModel StackScripts LevelTreeModel
  TreeCursorModel RazMetaModel RazModel TreeSpec RazView RazFrom RazScripts RazReach RazExamples
  AccumModel AccumScripts AccumProofs ExampleModel ExampleSpec ExampleProofs AdderProofs ExampleCases.

(** C57. Tokenizing a tree into any accumulator that is a plain stack gives the
    tokens that tokenizing the plain vector of its characters gives, or panics just
    as that does. *)
Theorem C57_any_accumulator : forall (M A : Type) (RM : RazMeta N M) (IF : IFace token A) (ok : level -> Prop) free (t : raz_tree N M),
  tree_reached free t -> is_lifo IF ok -> (forall lv, (1 <= lv)%N -> ok lv) ->
  match tokenize_vec (vec_iface token) (elts (contents t)) with
  | Ok ts => exists a, tokenize_tree IF t = Ok a /\ answers_as IF ok a (rev ts)
  | Panic m => tokenize_tree IF t = Panic m
  | Fuel => False
  end.
Proof. intros M A RM IF ok free t. exact (tokenize_any IF ok free t). Qed.
Print Assumptions C57_any_accumulator.

Theorem C57_panics_exactly_on_invalid : forall text,
  (Forall in_lang text -> exists ts, tokenize_vec (vec_iface token) text = Ok ts) /\
  (~ Forall in_lang text -> tokenize_vec (vec_iface token) text = Panic "invalid char").
Proof. intros text. exact (conj (tokenize_vec_total text) (tokenize_vec_bad text)). Qed.
Print Assumptions C57_panics_exactly_on_invalid.

Example C57_case : tree_reached false ad_tc /\ is_lifo (list_iface token) (fun _ => True) /\
  elts (contents ad_tc) = ad_text /\
  (do a <- tokenize_tree (list_iface token) ad_tc; do ' (l, _) <- irun (list_iface token) a [IPop; IPop; IPop; IPop]; Ok l) =
    Ok [Some (Some OpPlus); Some (Some OpPlus); Some (Some (Num 5)); Some (Some (Num 123))].
Proof.
  split; [exact ad_tc_reached|]. split; [apply list_lifo|]. split; [reflexivity|]. vm_compute. reflexivity.
Qed.

(** C58. If no number of the text exceeds 99999, tokenizing is lexing into maximal
    runs of digits; the reference tokenizer agrees once a comma ends the text. *)
Theorem C58_tokens : forall text, Forall in_lang text -> numbers_up_to 99999 (lex [] text) ->
  exists ts, tokenize_vec (vec_iface token) text = Ok ts /\ map tok_of ts = lex [] text /\
    ref_tokenize (text ++ [44%N]) = Ok ts.
Proof. exact tokens_all. Qed.
Print Assumptions C58_tokens.

(** The first digit that makes a number exceed 99999 is counted twice: at the end
    of this number and as the next one. *)
Theorem C58_overlong : forall run c, Forall (fun d => is_digit d = true) run -> is_digit c = true ->
  (value run <= 99999 < value (run ++ [c]))%N ->
  tokenize_vec (vec_iface token) (run ++ [c]) = Ok [Num (value (run ++ [c])); Num (c - 48)].
Proof. exact tokenize_overlong. Qed.
Print Assumptions C58_overlong.

(** The reference tokenizer forgets a number at the end of the text. *)
Theorem C58_reference_drops_last : forall text digits, Forall in_lang text ->
  numbers_up_to 4294967295 (lex [] text) -> Forall (fun d => is_digit d = true) digits ->
  exists ts, ref_tokenize (text ++ 44%N :: digits) = Ok ts /\ map tok_of ts = lex [] text.
Proof. exact ref_drops. Qed.
Print Assumptions C58_reference_drops_last.

(** So the two tokenizers disagree, on long and on trailing numbers. *)
Theorem C58_equal_reference_refuted :
  (exists text, Forall in_lang text /\ numbers_up_to 4294967295 (lex [] text) /\
     tokenize_vec (vec_iface token) (text ++ [44%N]) <> ref_tokenize (text ++ [44%N])) /\
  (exists text, Forall in_lang text /\ numbers_up_to 99999 (lex [] text) /\
     tokenize_vec (vec_iface token) text <> ref_tokenize text).
Proof.
  split.
  - exists [49;50;51;52;53;54]%N. split; [|split; [|vm_compute; discriminate]].
    + repeat (constructor; [now left|]). constructor.
    + apply Forall_cons; [vm_compute; discriminate|apply Forall_nil].
  - exists [49;50]%N. split; [|split; [|vm_compute; discriminate]].
    + repeat (constructor; [now left|]). constructor.
    + apply Forall_cons; [vm_compute; discriminate|apply Forall_nil].
Qed.
Print Assumptions C58_equal_reference_refuted.

Example C58_case : Forall in_lang ad_text /\ numbers_up_to 99999 (lex [] ad_text) /\
  lex [] ad_text = [TNum 23; TPlus; TNum 4; TPlus; TNum 4; TNum 23; TNum 54; TNum 123; TNum 5; TPlus; TPlus]%N /\
  value [49;50;51;52;53]%N = 12345%N /\ value [49;50;51;52;53;54]%N = 123456%N /\
  tokenize_vec (vec_iface token) [49;50;51;52;53;54]%N = Ok [Num 123456; Num 6].
Proof.
  split; [|split; [|vm_compute; repeat split]].
  - repeat (constructor; [first [left; reflexivity|right; left; reflexivity|right; right; reflexivity]|]). constructor.
  - change (lex [] ad_text) with [TNum 23; TPlus; TNum 4; TPlus; TNum 4; TNum 23; TNum 54; TNum 123; TNum 5; TPlus; TPlus]%N.
    repeat (apply Forall_cons; [first [exact I|lia]|]). apply Forall_nil.
Qed.

(** C59. The incremental pipeline (tokens in an archive stack, converted to a tree,
    parsed into an archive stack) gives the results of the plain pipeline, which
    are those of the evaluation of the tokens; [parse] is [reference::parse]. *)
Theorem C59_pipeline : forall (M M' : Type) (RM : RazMeta N M) (RM' : RazMeta token M') free (t : raz_tree N M),
  tree_reached free t -> levels_in (fun lv => lv < u32_max)%N (contents t) ->
  match adder_vec (elts (contents t)) with
  | Ok v => exists s, adder_inc (RM' := RM') t = Ok s /\
      answers_as (astack_iface N) (fun lv => lv < u32_max)%N s (rev v)
  | Panic m => adder_inc (RM' := RM') t = Panic m
  | Fuel => False
  end.
Proof. intros M M' RM RM' free t. exact (adder_inc_ok free t). Qed.
Print Assumptions C59_pipeline.

Theorem C59_evaluates : forall text, Forall in_lang text ->
  exists ts, tokenize_vec (vec_iface token) text = Ok ts /\
    adder_vec text = Ok (rev (eval (map tok_of ts))) /\ adder_vec text = Ok (ref_parse ts).
Proof. exact adder_vec_all. Qed.
Print Assumptions C59_evaluates.

Theorem C59_small_numbers : forall text, Forall in_lang text -> numbers_up_to 99999 (lex [] text) ->
  adder_vec text = Ok (rev (eval (lex [] text))).
Proof. exact adder_vec_lex. Qed.
Print Assumptions C59_small_numbers.

Example C59_case : tree_reached false ad_tc /\ levels_in (fun lv => lv < u32_max)%N (contents ad_tc) /\
  adder_vec (elts (contents ad_tc)) = Ok [27; 4; 23; 182]%N /\
  (do s <- adder_inc (RM' := count_meta token) ad_tc; do ' (l, _) <- irun (astack_iface N) s [IPop; IPop; IPop; IPop; IPop]; Ok l) =
    Ok [Some (Some 182); Some (Some 23); Some (Some 4); Some (Some 27); Some None]%N.
Proof.
  split; [exact ad_tc_reached|]. split; [repeat constructor|]. split; vm_compute; reflexivity.
Qed.

(** C60. Evaluation keeps the total of the numbers, up to u32 overflow. *)
Theorem C60_total : forall l, (total (eval l) mod 2 ^ 32 = nums l mod 2 ^ 32)%N.
Proof. intros l. exact (eval_total l []). Qed.
Print Assumptions C60_total.

Theorem C60_adder_total : forall text, Forall in_lang text -> numbers_up_to 99999 (lex [] text) ->
  exists v, adder_vec text = Ok v /\ (total v mod 2 ^ 32 = nums (lex [] text) mod 2 ^ 32)%N.
Proof. exact adder_total. Qed.
Print Assumptions C60_adder_total.

(** A sum of two tokens wraps around at 2^32. *)
Example C60_case : nums (lex [] ad_text) = 236%N /\ adder_vec ad_text = Ok [27; 4; 23; 182]%N /\
  eval [TNum 4294967295; TNum 2; TPlus]%N = [1]%N.
Proof. vm_compute. repeat split. Qed.
