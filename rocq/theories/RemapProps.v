(** Property C19. *)
From Coq Require Import List Bool ZArith Lia.
From Verif Require Import RemapModel RemapProofs.
Import ListNotations.
Local Open Scope Z_scope.

(** An error on the first line of a chunk of output is reported at the file and line of the
    source line that produced the chunk. [lines] gives the origin of every line of the assembled
    source; [s] is the assembled line the chunk comes from. Missing for the full property: the other lines of
    chunks of several lines, refuted below. *)
Theorem C19_errors_first_line_partial : forall chunks lines j n s f l,
  (forall c, In c chunks -> 1 <= fst c) ->
  nth_error chunks j = Some (n, s) -> 0 <= s -> nth_error lines (Z.to_nat s) = Some (f, l) ->
  error_report (adding_lines 0 chunks) (source_lines 0 lines) (start chunks j + 1) = Some (f, l + 1).
Proof. exact first_line_ok. Qed.
Print Assumptions C19_errors_first_line_partial.

(** So errors are exact when no Lua insertion spans several lines. *)
Theorem C19_errors_single_line_chunks : forall chunks lines j s f l,
  (forall c, In c chunks -> fst c = 1) ->
  nth_error chunks j = Some (1, s) -> 0 <= s -> nth_error lines (Z.to_nat s) = Some (f, l) ->
  error_report (adding_lines 0 chunks) (source_lines 0 lines) (Z.of_nat j + 1) = Some (f, l + 1).
Proof. exact single_lines_ok. Qed.
Print Assumptions C19_errors_single_line_chunks.

Definition lines_ex : list (nat * Z) := [(0%nat, 0); (0%nat, 1); (1%nat, 0); (1%nat, 1); (0%nat, 2); (0%nat, 3)].

Example C19_ex : error_report (adding_lines 0 [(1, 0); (3, 2); (1, 5)]) (source_lines 0 lines_ex) 2 = Some (1%nat, 1)
  /\ start [(1, 0); (3, 2); (1, 5)] 1 + 1 = 2.
Proof. split; reflexivity. Qed.

(** Second line of a chunk: reported at the source line of the next chunk. *)
Theorem C19_interior_line_refuted : exists chunks lines,
  (forall c, In c chunks -> 1 <= fst c) /\ nth_error chunks 1 = Some (3, 2) /\
  start chunks 1 < 2 < start chunks 2 /\ nth_error lines 2 = Some (1%nat, 0) /\
  error_report (adding_lines 0 chunks) (source_lines 0 lines) (2 + 1) = Some (0%nat, 4).
Proof.
  exists [(1, 0); (3, 2); (1, 5)], lines_ex. split.
  - intros c [<-|[<-|[<-|[]]]]; cbn; lia.
  - repeat split.
Qed.
Print Assumptions C19_interior_line_refuted.

(** Warnings use the line number from 1 where the search expects it from 0: the line printed is that of the next
    chunk; when the source has blank lines (not output) it is wrong. *)
Theorem C19_warning_refuted : exists chunks lines,
  (forall c, In c chunks -> fst c = 1) /\ nth_error chunks 0 = Some (1, 0) /\ nth_error lines 0 = Some (0%nat, 0) /\
  warn_report (adding_lines 0 chunks) (source_lines 0 lines) 1 = Some (0%nat, 3).
Proof.
  exists [(1, 0); (1, 5)], lines_ex. split; [intros c [<-|[<-|[]]]; reflexivity|]. repeat split.
Qed.
Print Assumptions C19_warning_refuted.

(** With nothing output the search reads outside of the table. *)
Theorem C19_empty_refuted : forall source, error_report [] source 1 = None.
Proof. reflexivity. Qed.
Print Assumptions C19_empty_refuted.

(** In general a line of the output is reported at the source line of the first chunk starting on this line or after it, the last chunk if there is none:
    interior lines are exactly reported at the next chunk. *)
Theorem C19_interior_lines : forall chunks lines j n s f l line,
  (forall c, In c chunks -> 1 <= fst c) ->
  nth_error chunks j = Some (n, s) -> 0 <= s -> nth_error lines (Z.to_nat s) = Some (f, l) -> 0 <= line ->
  (forall k, (k < j)%nat -> start chunks k < line) -> ((S j < length chunks)%nat -> line <= start chunks j) ->
  error_report (adding_lines 0 chunks) (source_lines 0 lines) (line + 1) = Some (f, l + 1).
Proof. exact interior_ok. Qed.
Print Assumptions C19_interior_lines.
Example C19_interior_ex : error_report (adding_lines 0 [(1, 0); (3, 2); (2, 5)]) (source_lines 0 lines_ex) 3 = Some (0%nat, 4) /\
  error_report (adding_lines 0 [(1, 0); (3, 2); (2, 5)]) (source_lines 0 lines_ex) 6 = Some (0%nat, 4).
Proof. split; reflexivity. Qed.
