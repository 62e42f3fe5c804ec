(** * Properties of the reports of the experiments (C84, C85). *)

From Coq Require Import ZArith.
From Verif Require Import Base EvalModel ReportModel ReportSpec ReportProofs.

(** C84. The report on two sequences of compute times. The number of the cross over is
    the last change at which the native total passes the incremental total. *)
Theorem C84_report : forall changes native inc, changes < length native -> changes < length inc ->
  exists r, report_of changes native inc = Ok r /\
    Some (native_init r) = nth_error native 0 /\ Some (adapton_init r) = nth_error inc 0 /\
    (adapton_init r + update_sum r = spent inc (S changes))%Z /\ update_len r = changes /\
    last_overtake native inc changes (crossover r).
Proof. exact report_ok. Qed.
Print Assumptions C84_report.

(** Too few times are a panic. *)
Theorem C84_short : forall changes native inc, length native <= changes \/ length inc <= changes ->
  report_of changes native inc = Panic "index out of bounds".
Proof. exact report_short. Qed.
Print Assumptions C84_short.

(** If the incremental version is ahead at the end, it is ahead from the reported change on. *)
Theorem C84_ahead_since : forall changes native inc r, report_of changes native inc = Ok r ->
  (spent inc (S changes) <= spent native (S changes))%Z ->
  forall c, crossover r <= c -> c <= changes -> (spent inc (S c) <= spent native (S c))%Z.
Proof. exact report_since. Qed.
Print Assumptions C84_ahead_since.

(** "off chart" after a slower initial run means it never catches up. *)
Theorem C84_off_chart : forall changes native inc r, report_of changes native inc = Ok r -> crossover r = 0 ->
  (native_init r < adapton_init r)%Z ->
  forall c, c <= changes -> (spent native (S c) < spent inc (S c))%Z.
Proof. exact report_behind. Qed.
Print Assumptions C84_off_chart.

(** A cross over can be reported though the incremental version is behind at the end ... *)
Theorem C84_stays_ahead_refuted : exists changes native inc r,
  report_of changes native inc = Ok r /\ 0 < crossover r /\ crossover r < changes /\
  (spent native (S changes) < spent inc (S changes))%Z.
Proof.
  exists 3, [1; 5; 1; 1]%Z, [2; 1; 9; 1]%Z, (Report 1 2 11 3 1).
  split; [reflexivity|]. split; [apply le_n|]. split; [repeat constructor|reflexivity].
Qed.
Print Assumptions C84_stays_ahead_refuted.

(** ... and "off chart" though it is ahead all the time. *)
Theorem C84_off_chart_behind_refuted : exists changes native inc r,
  report_of changes native inc = Ok r /\ crossover r = 0 /\ 0 < changes /\
  forall c, c <= changes -> (spent inc (S c) < spent native (S c))%Z.
Proof.
  exists 2, [3; 3; 3]%Z, [2; 1; 1]%Z, (Report 3 2 2 2 0).
  split; [reflexivity|]. split; [reflexivity|]. split; [repeat constructor|].
  intros [|[|[|c]]] H; reflexivity.
Qed.
Print Assumptions C84_off_chart_behind_refuted.

(** Behind at first, ahead after change 2, behind after 3, ahead from 5 on. *)
Example C84_case : report_of 6 [1; 1; 4; 1; 1; 9; 2; 7]%Z [2; 2; 1; 3; 1; 1; 1; 8]%Z = Ok (Report 1 2 9 6 5) /\
  overtakes [1; 1; 4; 1; 1; 9; 2; 7]%Z [2; 2; 1; 3; 1; 1; 1; 8]%Z 2 /\
  (spent [2; 2; 1; 3; 1; 1; 1; 8] 7 <= spent [1; 1; 4; 1; 1; 9; 2; 7] 7)%Z /\
  report_of 2 [1; 1; 1]%Z [4; 1; 1]%Z = Ok (Report 1 4 2 2 0).
Proof.
  split; [reflexivity|]. split.
  - split; [repeat constructor|]. split; [reflexivity|vm_compute; discriminate].
  - split; [vm_compute; discriminate|reflexivity].
Qed.

(** C85. The rows of a data file: row [j] has the times of the creation and the first
    [j] edits and of the first [j + 1] computations. *)
Theorem C85_rows : forall changes edits comps, changes <= length edits -> changes <= length comps ->
  report_rows changes edits comps = Ok (map (fun j => (j, spent edits (S j), spent comps (S j))) (seq 0 changes)).
Proof. exact rows_ok. Qed.
Print Assumptions C85_rows.

(** The times of the last change, which come after the first [changes], are not in the table. *)
Theorem C85_last_change_missing : forall changes edits comps edits' comps',
  changes <= length edits -> changes <= length comps ->
  report_rows changes (firstn changes edits ++ edits') (firstn changes comps ++ comps') = report_rows changes edits comps.
Proof. exact rows_local. Qed.
Print Assumptions C85_last_change_missing.

(** So the last row is not the total of the experiment. *)
Theorem C85_last_row_total_refuted : exists changes edits comps rows e r,
  length edits = S changes /\ length comps = S changes /\
  report_rows changes edits comps = Ok (rows ++ [(changes - 1, e, r)]) /\
  (e < spent edits (S changes))%Z /\ (r < spent comps (S changes))%Z.
Proof. exists 2, [3; 1; 1]%Z, [5; 2; 2]%Z, [(0, 3%Z, 5%Z)], 4%Z, 7%Z. repeat split. Qed.
Print Assumptions C85_last_row_total_refuted.

Example C85_case : report_rows 3 [10; 1; 2; 3]%Z [20; 4; 5; 6]%Z = Ok [(0, 10%Z, 20%Z); (1, 11%Z, 24%Z); (2, 13%Z, 29%Z)].
Proof. reflexivity. Qed.
