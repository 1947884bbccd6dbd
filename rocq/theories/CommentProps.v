(** Property C21. *)
From Coq Require Import Ascii String List Bool Arith Lia.
From Verif Require Import CommentModel CommentProofs.
Import ListNotations.
Local Open Scope char_scope.

(** A line comment ends at the end of its line. *)
Theorem C21_line_comment : forall sb b r, ~ In nl b ->
  jumpOverComment sb ("/" :: "/" :: b ++ nl :: r) = JDone 0 (nl :: r).
Proof. exact line_comment. Qed.
Print Assumptions C21_line_comment.

(** A block comment ends at its first closing mark, and its lines are counted, provided no star in it is
    followed by a star or a blank. *)
Theorem C21_block_comment_partial : forall sb b r, stars_ok b ->
  jumpOverComment sb ("/" :: "*" :: b ++ "*" :: "/" :: r) = JDone (count_nl b) r.
Proof. exact block_comment. Qed.
Print Assumptions C21_block_comment_partial.

Definition txt (s : string) := list_ascii_of_string s.

Example C21_ex : jumpOverComment true (txt "/* a*b / c */ x*/") = JDone 0 (txt " x*/")
  /\ stars_ok (txt " a*b / c ") /\ jumpOverComment false (txt "/ b") = JNot (txt " b").
Proof.
  split; [reflexivity|]. split; [|reflexivity].
  cbn. repeat (split; [intros E; try discriminate E; try (repeat split; discriminate)|]). exact I.
Qed.

(** [/***/] is not closed: the text up to the next closing mark is swallowed. *)
Theorem C21_double_star_refuted : exists r, forall sb,
  jumpOverComment sb (txt "/***/" ++ r)%list = JDone 0 (txt " y") /\ r = txt " x */ y".
Proof. exists (txt " x */ y"). intros []; split; reflexivity. Qed.
Print Assumptions C21_double_star_refuted.

(** Or the compilation stops. *)
Theorem C21_double_star_error_refuted : forall sb, jumpOverComment sb (txt "/***/ x") = JError.
Proof. intros []; reflexivity. Qed.
Print Assumptions C21_double_star_error_refuted.
