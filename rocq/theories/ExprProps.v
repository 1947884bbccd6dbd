(** C57: an expression means in the generated Verilog what it means in the source. *)
From Coq Require Import String Ascii List Bool Arith NArith ZArith Lia.
From Verif Require Import LiteralModel ExprModel ExprLex ExprParse ExprProofs ExprValue.
From Verif Require LintModel LintProofs.
Import ListNotations.
Local Open Scope string_scope.
Local Open Scope list_scope.

(** The text written for an expression is read back as the expression of the source exactly when no operators become another one
    and no conditional operator follows another one. [sv]: the operators of SystemVerilog are recognised. *)
Theorem C57_read_back : forall sv e, der e -> 1 <= lvl e -> (reads sv (write e) (tr e) <-> apart sv e /\ unchained e).
Proof. exact reads_iff. Qed.

(** A text is read in one way at most. *)
Theorem C57_unambiguous : forall sv s v v', reads sv s v -> reads sv s v' -> v = v'.
Proof. exact reads_unique. Qed.

(** What is read has the value of the expression of the source, whatever the names mean; an exclusive or whose second operand is only
    a complement is read as another operator, of same value. *)
Theorem C57_value_partial : forall sv e, der e -> 1 <= lvl e -> apart sv (glue e) -> unchained e ->
  exists v, reads sv (write e) v /\
    forall M G, let x := den M v in let y := den M (tr e) in
      LintModel.vwidth G x = LintModel.vwidth G y /\ LintModel.vsigned G x = LintModel.vsigned G y /\
      (forall sg L, LintModel.veval G sg L x = LintModel.veval G sg L y) /\
      (forall lw, LintModel.assigned G lw x = LintModel.assigned G lw y).
Proof.
  intros sv e D L A U. destruct (reads_value sv e D L A U) as (v & R & S). exists v. split; [exact R|]. intros M G. cbv zeta.
  destruct (S M G) as (W & Sg & V). split; [exact W|]. split; [exact Sg|]. split; [exact V|].
  intros lw. unfold LintModel.assigned. rewrite W, Sg, V. reflexivity.
Qed.

(** Chains of conditional operators are read from the right: after a colon comes all that follows. *)
Theorem C57_chain : forall sv e, der e -> 1 <= lvl e -> apart sv e -> reads sv (write e) (right (tr e)).
Proof. exact reads_right. Qed.
Theorem C57_chain_right : forall x a y b c, (forall p q r, x <> VTern p q r) -> (forall p q r, y <> VTern p q r) ->
  right x = x -> right y = y -> right a = a -> right b = b -> right c = c ->
  right (VTern (VTern x a y) b c) = VTern x a (VTern y b c).
Proof.
  intros x a y b c Hx Hy Rx Ry Ra Rb Rc. cbn [right]. rewrite Rx, Ry, Ra, Rb, Rc.
  destruct x; try (cbn [rot]; destruct y; try reflexivity; exfalso; exact (Hy _ _ _ eq_refl)). exfalso. exact (Hx _ _ _ eq_refl).
Qed.

(** Numbers with a size are written as in C37. *)
Lemma base_word : forall b, baseb b = true -> wordc b = true.
Proof. intros [[] [] [] [] [] [] [] []]; vm_compute; congruence. Qed.
Lemma value_word : forall v, all_chars valueb v = true -> all_chars wordc v = true.
Proof.
  induction v; intro H; [reflexivity|]. cbn [all_chars] in *. apply andb_true_iff in H. destruct H as [H K]. rewrite (IHv K), andb_true_r.
  destruct a as [[] [] [] [] [] [] [] []]; revert H; vm_compute; congruence.
Qed.
Theorem C57_number : forall s w b v neg, split_number s = Some (w, b, v, neg) ->
  rewrite_number s = Some (write (ESized neg w b v)) /\ der (ESized neg w b v).
Proof.
  intros s w b v neg H. split.
  - unfold rewrite_number. rewrite H. reflexivity.
  - unfold split_number in H. destruct (strip_minus s) as [ng r]. destruct (span_digits r) as [ds r1].
    destruct (strip_quote r1) as [|b' v'] eqn:Q; [discriminate|].
    destruct (negb (empty ds) && baseb b' && negb (empty v') && all_chars valueb v') eqn:E; [|discriminate].
    destruct (atoi ds); [|discriminate]. injection H as <- <- <- <-.
    apply andb_true_iff in E. destruct E as [E V]. apply andb_true_iff in E. destruct E as [E _]. apply andb_true_iff in E. destruct E as [_ B].
    split; [exact (base_word _ B)|exact (value_word _ V)].
Qed.

(** * Where it does not hold *)

Definition va := EId Plain "a". Definition vb := EId Plain "b". Definition vc := EId Plain "c".
(** a, b and c are unsigned variables, of the widths and values given. *)
Definition abc : meaning :=
  {| m_word := fun s => LintModel.Var (if String.eqb s "a" then 0 else if String.eqb s "b" then 1 else 2);
     m_num := fun _ => 0; m_access := fun _ => LintModel.Var 0 |}.
Definition vars (wa wb wc : nat) (a b c : Z) : LintModel.env :=
  {| LintModel.v_type := fun _ => LintModel.UInt;
     LintModel.v_width := fun x => match x with 0 => wa | 1 => wb | _ => wc end;
     LintModel.v_val := fun x => match x with 0 => a | 1 => b | _ => c end |}.

(** The expression is one of the grammar, its text is read, and gives another value to a variable of [lw] bits. *)
Definition misread (e : expr) (G : LintModel.env) (lw : nat) : Prop :=
  der e /\ 1 <= lvl e /\ exists v, reads false (write e) v /\ LintModel.assigned G lw (den abc v) <> LintModel.assigned G lw (den abc (tr e)).
Lemma misread_by : forall e G lw ts n v, der e -> 1 <= lvl e -> lex false None (write e) = Some ts -> p_expr n ts = Some (v, []) ->
  Z.eqb (LintModel.assigned G lw (den abc v)) (LintModel.assigned G lw (den abc (tr e))) = false -> misread e G lw.
Proof.
  intros e G lw ts n v D L X P N. split; [exact D|]. split; [exact L|]. exists v. split; [exists ts, n; split; assumption|].
  apply Z.eqb_neq. exact N.
Qed.
Ltac dd := cbn; repeat split; try discriminate; try lia; try reflexivity.
Ltac misread_tac := eapply misread_by with (n := 60); [dd|cbn; lia|vm_compute; reflexivity|vm_compute; reflexivity|vm_compute; reflexivity].

(** [a & &b] is written [a&&b]. *)
Theorem C57_and_reduction_refuted : misread (EBin And va (EUn RAnd vb)) (vars 4 4 4 2 3 0) 4 /\ write (EBin And va (EUn RAnd vb)) = "a&&b".
Proof. split; [misread_tac|reflexivity]. Qed.
(** [a | |b] is written [a||b]. *)
Theorem C57_or_reduction_refuted : misread (EBin Or va (EUn ROr vb)) (vars 4 4 4 2 0 0) 4 /\ write (EBin Or va (EUn ROr vb)) = "a||b".
Proof. split; [misread_tac|reflexivity]. Qed.
(** [a ^ ~|b] is written [a^~|b]. *)
Theorem C57_xor_nor_refuted : misread (EBin Xor va (EUn RNor vb)) (vars 4 4 4 0 1 0) 4 /\ write (EBin Xor va (EUn RNor vb)) = "a^~|b".
Proof. split; [misread_tac|reflexivity]. Qed.
(** [a ^ ~&b] is written [a^~&b]. *)
Theorem C57_xor_nand_refuted : misread (EBin Xor va (EUn RNand vb)) (vars 4 4 4 0 1 0) 4 /\ write (EBin Xor va (EUn RNand vb)) = "a^~&b".
Proof. split; [misread_tac|reflexivity]. Qed.
(** [a ^ ~b & c] is written [a^~b&c], read as [a ^~ (b & c)]. *)
Theorem C57_xor_complement_refuted :
  misread (EBin Xor va (EBin And (EUn Not vb) vc)) (vars 4 4 4 0 3 5) 4 /\ write (EBin Xor va (EBin And (EUn Not vb) vc)) = "a^~b&c".
Proof. split; [misread_tac|reflexivity]. Qed.
(** In [a ? b : c ? a : b] the source is [(a ? b : c) ? a : b] and the text is [a ? b : (c ? a : b)]. *)
Theorem C57_chain_refuted :
  misread (ETern (ETern va vb vc) va vb) (vars 4 4 4 1 2 0) 4 /\ write (ETern (ETern va vb vc) va vb) = "a ? b:c ? a:b".
Proof. split; [misread_tac|reflexivity]. Qed.

(** [a - -b] is written [a--b] and [a && &b] is written [a&&&b]: not expressions when the operators of SystemVerilog are
    recognised. *)
Theorem C57_minus_refuted : let e := EBin Sub va (EUn Neg vb) in der e /\ apart false e /\ write e = "a--b" /\ forall v, ~ reads true (write e) v.
Proof.
  cbv zeta. split; [dd|]. split; [dd|]. split; [reflexivity|].
  apply never_read with (ts := [TWord "a"; TOp "--"; TWord "b"]) (s := "--"); [reflexivity|right; left; reflexivity|left; reflexivity].
Qed.
Theorem C57_and_and_refuted : let e := EBin LAnd va (EUn RAnd vb) in der e /\ apart false e /\ write e = "a&&&b" /\ forall v, ~ reads true (write e) v.
Proof.
  cbv zeta. split; [dd|]. split; [dd|]. split; [reflexivity|].
  apply never_read with (ts := [TWord "a"; TOp "&&&"; TWord "b"]) (s := "&&&"); [reflexivity|right; left; reflexivity|right; reflexivity].
Qed.

(** The width found for an expression is the one of the tree of the source: in [a ? b : c ? a : a] it is the width of a, while b can
    be the value of what the Verilog reads. No warning is given on an assignment to a variable of this width, bits are lost. *)
Theorem C18_chain_refuted : let e := ETern (ETern va vb vc) va va in let G := vars 1 8 1 1 200 0 in
  der e /\ exists v t, reads false (write e) v /\ LintModel.type_nfo G (den abc (tr e)) = Some t /\ LintModel.warns_width 1 t = false /\
  LintModel.assigned G 8 (den abc v) = 200%Z /\ LintModel.assigned G 1 (den abc v) = 0%Z.
Proof.
  cbv zeta. split; [dd|]. eexists. eexists. split.
  - apply reads_right; [dd|cbn; lia|dd].
  - split; [vm_compute; reflexivity|]. split; [vm_compute; reflexivity|]. split; vm_compute; reflexivity.
Qed.

(** * The hypotheses are met *)

(** A concatenation, a table, a part select, a signed field, a conditional operator, operators of several levels. *)
Definition sample : expr :=
  ETern (EBin LAnd (EBin Le va (EBin Add vb (ESized false 4 "h"%char "f"))) (EUn LNot (EParen (EBin Or va vb))))
    (EBin Add (ESelect (EIndex (EId Plain "t") (EBin Sub va (ENum "1"))) vb "3") (ESigned (ECat (EComma va (ERep "2" (ECat vb))))))
    (EBin Sub (EField true vc "4" "2") (EBin Mul (EFieldSel false vc vb "1" "3") (EUn Neg vc))).
Example C57_sample_written : write sample =
  "a<=b+4'hf&&!(a|b) ? t[a-1][b+:3]+$signed({a,{2{b}}}):$signed(c[4+:2])-c[((b)+(1))+:3]*-c".
Proof. reflexivity. Qed.
Example C57_sample_read : reads true (write sample) (tr sample).
Proof. apply C57_read_back; dd. Qed.
Example C57_sample_glued : exists v, reads true "a^~b" v /\ v <> tr (EBin Xor va (EUn Not vb)) /\ same (den abc v) (den abc (tr (EBin Xor va (EUn Not vb)))).
Proof.
  exists (tr (EBin XnorA va vb)). split; [|split; [discriminate|]].
  - change "a^~b" with (write (EBin XnorA va vb)). apply C57_read_back; dd.
  - apply (glue_same abc (EBin Xor va (EUn Not vb))).
Qed.
Example C57_sample_value : apart true (glue (EBin Or vc (EBin Xor va (EUn Not vb)))) /\ ~ apart true (EBin Or vc (EBin Xor va (EUn Not vb))).
Proof. split; [dd|]. cbn. intros (_ & (_ & _ & H) & _). discriminate H. Qed.
Example C57_sample_chain : reads false (write (ETern (ETern va vb vc) va vb)) (VTern (VWord "a") (VWord "b") (VTern (VWord "c") (VWord "a") (VWord "b"))).
Proof. apply (C57_chain false (ETern (ETern va vb vc) va vb)); dd. Qed.
Example C57_sample_number : split_number "-8hff" = Some (8%N, "h"%char, "ff", true) /\ write (ESized true 8 "h"%char "ff") = "-8'hff".
Proof. split; reflexivity. Qed.

Print Assumptions C57_read_back.
Print Assumptions C57_unambiguous.
Print Assumptions C57_value_partial.
Print Assumptions C57_chain.
Print Assumptions C57_chain_right.
Print Assumptions C57_number.
Print Assumptions C57_and_reduction_refuted.
Print Assumptions C57_or_reduction_refuted.
Print Assumptions C57_xor_nor_refuted.
Print Assumptions C57_xor_nand_refuted.
Print Assumptions C57_xor_complement_refuted.
Print Assumptions C57_chain_refuted.
Print Assumptions C57_minus_refuted.
Print Assumptions C57_and_and_refuted.
Print Assumptions C18_chain_refuted.
