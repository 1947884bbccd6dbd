From Coq Require Import String Ascii List Bool Arith NArith Decimal DecimalString DecimalN DecimalFacts Lia.
From Verif Require Import LiteralModel.
Import ListNotations.
Local Open Scope string_scope.
Local Open Scope list_scope.

(** Number denoted by a decimal text. *)
Fixpoint dec_value (acc : N) (s : string) : N :=
  match s with
  | EmptyString => acc
  | String c r => dec_value (10 * acc + N.of_nat (nat_of_ascii c - 48)) r
  end.

(** A Verilog literal [-]w'bV: sign, width, base, digits. *)
Definition verilog_read (s : string) : option (bool * N * ascii * string) :=
  let '(neg, r) := strip_minus s in
  let (w, r1) := span_digits r in
  match r1 with
  | String "'"%char (String b v) => if empty w then None else Some (neg, dec_value 0 w, b, v)
  | _ => None
  end.

Lemma string_of_uint_digits : forall d, all_chars digitb (NilEmpty.string_of_uint d) = true.
Proof. induction d; cbn; auto. Qed.
Lemma to_string_digits : forall n, all_chars digitb (to_string n) = true.
Proof.
  intros n. unfold to_string, NilZero.string_of_uint. destruct (N.to_uint n) eqn:E; try reflexivity;
  rewrite <- E; apply string_of_uint_digits.
Qed.
Lemma to_string_nonempty : forall n, empty (to_string n) = false.
Proof. intros n. unfold to_string, NilZero.string_of_uint. destruct (N.to_uint n); reflexivity. Qed.

Lemma span_digits_app : forall a c r, all_chars digitb a = true -> digitb c = false ->
  span_digits (a ++ String c r)%string = (a, String c r).
Proof.
  induction a as [|x a IH]; intros c r Ha Hc; cbn.
  - rewrite Hc. reflexivity.
  - cbn in Ha. apply andb_true_iff in Ha. destruct Ha as [H1 H2]. rewrite H1, IH by assumption. reflexivity.
Qed.

Lemma span_digits_spec : forall s w r, span_digits s = (w, r) ->
  s = (w ++ r)%string /\ all_chars digitb w = true /\ (forall c r', r = String c r' -> digitb c = false).
Proof.
  induction s as [|c s IH]; intros w r H; cbn in H.
  - inversion H; subst. repeat split; congruence.
  - destruct (digitb c) eqn:E.
    + destruct (span_digits s) as [a b]. inversion H; subst. destruct (IH a r eq_refl) as (-> & H2 & H3).
      split; [reflexivity|]. split; [cbn; rewrite E; exact H2|exact H3].
    + inversion H; subst. split; [reflexivity|]. split; [reflexivity|]. intros c' r' H'. inversion H'; subst. exact E.
Qed.

(** Reading of decimal texts. *)
Lemma dec_value_acc : forall d acc,
  N.pos (Pos.of_uint_acc d acc) = dec_value (N.pos acc) (NilEmpty.string_of_uint d).
Proof.
  induction d as [|d IH|d IH|d IH|d IH|d IH|d IH|d IH|d IH|d IH|d IH]; intros acc; [reflexivity|..];
  cbn [NilEmpty.string_of_uint dec_value Pos.of_uint_acc]; rewrite IH; apply (f_equal (fun x => dec_value x _)).
  - change (N.of_nat (nat_of_ascii "0" - 48)) with 0%N. lia.
  - change (N.of_nat (nat_of_ascii "1" - 48)) with 1%N. lia.
  - change (N.of_nat (nat_of_ascii "2" - 48)) with 2%N. lia.
  - change (N.of_nat (nat_of_ascii "3" - 48)) with 3%N. lia.
  - change (N.of_nat (nat_of_ascii "4" - 48)) with 4%N. lia.
  - change (N.of_nat (nat_of_ascii "5" - 48)) with 5%N. lia.
  - change (N.of_nat (nat_of_ascii "6" - 48)) with 6%N. lia.
  - change (N.of_nat (nat_of_ascii "7" - 48)) with 7%N. lia.
  - change (N.of_nat (nat_of_ascii "8" - 48)) with 8%N. lia.
  - change (N.of_nat (nat_of_ascii "9" - 48)) with 9%N. lia.
Qed.

Lemma dec_value_uint : forall d, N.of_uint d = dec_value 0 (NilEmpty.string_of_uint d).
Proof.
  induction d; cbn [NilEmpty.string_of_uint dec_value].
  - reflexivity.
  - exact IHd.
  - exact (dec_value_acc d 1).
  - exact (dec_value_acc d 2).
  - exact (dec_value_acc d 3).
  - exact (dec_value_acc d 4).
  - exact (dec_value_acc d 5).
  - exact (dec_value_acc d 6).
  - exact (dec_value_acc d 7).
  - exact (dec_value_acc d 8).
  - exact (dec_value_acc d 9).
Qed.

Lemma to_string_value : forall n, dec_value 0 (to_string n) = n.
Proof.
  intros n. unfold to_string, NilZero.string_of_uint. destruct (N.to_uint n) eqn:E;
  [exfalso; destruct n; cbn in E; [discriminate|apply (DecimalPos.Unsigned.to_uint_nonnil p E)]|..];
  rewrite <- E, <- dec_value_uint; apply DecimalN.Unsigned.of_to.
Qed.

Lemma uint_of_string_digits : forall s, all_chars digitb s = true -> exists d, NilEmpty.uint_of_string s = Some d /\ NilEmpty.string_of_uint d = s.
Proof.
  induction s as [|c s IH]; intros H; [exists Nil; auto|]. cbn in H. apply andb_true_iff in H. destruct H as [H1 H2].
  destruct (IH H2) as (d & E & Es). cbn. rewrite E.
  assert (K : exists d', uint_of_char c (Some d) = Some d' /\ NilEmpty.string_of_uint d' = String c s).
  { unfold digitb in H1. apply andb_true_iff in H1. destruct H1 as [A B]. apply Nat.leb_le in A. apply Nat.leb_le in B.
    rewrite <- (ascii_nat_embedding c). remember (nat_of_ascii c) as n. clear Heqn.
    assert (Hn : n = 48 \/ n = 49 \/ n = 50 \/ n = 51 \/ n = 52 \/ n = 53 \/ n = 54 \/ n = 55 \/ n = 56 \/ n = 57) by lia.
    repeat destruct Hn as [->|Hn]; try subst n; cbn; eexists; (split; [reflexivity|]); cbn; rewrite Es; reflexivity. }
  exact K.
Qed.

Lemma atoi_value : forall s, all_chars digitb s = true -> empty s = false ->
  atoi s = if (dec_value 0 s <=? 2147483647)%N then Some (dec_value 0 s) else None.
Proof.
  intros s H He. destruct (uint_of_string_digits s H) as (d & E & Es). unfold atoi.
  assert (K : NilZero.uint_of_string s = Some d).
  { unfold NilZero.uint_of_string. destruct s; [discriminate|exact E]. }
  rewrite K, dec_value_uint, Es. reflexivity.
Qed.

Lemma base_not_quote : forall b v, baseb b = true -> strip_quote (String b v) = String b v.
Proof.
  intros b v H. unfold strip_quote. destruct (Ascii.eqb_spec b "'"%char) as [->|Hn]; [discriminate|reflexivity].
Qed.

Lemma split_of_lex : forall s neg w b v, lex_sized s = Some (neg, w, b, v) ->
  split_number s = match atoi w with Some n => Some (n, b, v, neg) | None => None end
  /\ all_chars digitb w = true /\ empty w = false /\ baseb b = true.
Proof.
  intros s neg w b v H. unfold lex_sized, split_number in *.
  destruct (strip_minus s) as [ng r].
  destruct (span_digits r) as [w' r1] eqn:Es. destruct r1 as [|b' v']; [discriminate|].
  destruct (negb (empty w') && baseb b' && negb (empty v') && all_chars valueb v') eqn:E; [|discriminate].
  inversion H; subst.
  pose proof E as E0. apply andb_true_iff in E. destruct E as [E _]. apply andb_true_iff in E. destruct E as [E _].
  apply andb_true_iff in E. destruct E as [Hw Hb]. destruct (span_digits_spec _ _ _ Es) as (_ & Hd & _).
  split; [|split; [assumption|split; [destruct w; [discriminate|reflexivity]|assumption]]].
  rewrite (base_not_quote b v Hb). rewrite E0. reflexivity.
Qed.

Lemma rewrite_correct : forall s neg w b v, lex_sized s = Some (neg, w, b, v) -> (dec_value 0 w <= 2147483647)%N ->
  exists out, rewrite_number s = Some out /\ verilog_read out = Some (neg, dec_value 0 w, b, v).
Proof.
  intros s neg w b v H Hw. destruct (split_of_lex _ _ _ _ _ H) as (Hs & Hd & He & Hb).
  unfold rewrite_number. rewrite Hs, (atoi_value w Hd He). rewrite (proj2 (N.leb_le _ _) Hw).
  eexists. split; [reflexivity|]. set (n := dec_value 0 w).
  assert (K : span_digits (to_string n ++ "'" ++ String b v)%string = (to_string n, String "'"%char (String b v))).
  { apply span_digits_app; [apply to_string_digits|reflexivity]. }
  unfold verilog_read. destruct neg.
  - change ("-" ++ to_string n ++ "'" ++ String b v)%string with (String "-" (to_string n ++ "'" ++ String b v)%string).
    cbn [strip_minus]. rewrite Ascii.eqb_refl. rewrite K, to_string_nonempty, to_string_value. reflexivity.
  - assert (Kn : strip_minus (to_string n ++ "'" ++ String b v)%string = (false, (to_string n ++ "'" ++ String b v)%string)).
    { pose proof (to_string_digits n) as D. pose proof (to_string_nonempty n) as Ne.
      destruct (to_string n) as [|c t]; [discriminate|]. cbn [append strip_minus].
      destruct (Ascii.eqb_spec c "-"%char) as [->|Hc]; [cbn in D; discriminate|reflexivity]. }
    change ("" ++ to_string n ++ "'" ++ String b v)%string with (to_string n ++ "'" ++ String b v)%string.
    rewrite Kn, K, to_string_nonempty, to_string_value. reflexivity.
Qed.

(** The base only allows its own digits: when the digits are legal in the source they are legal in the result (same text). *)
Lemma is_number_lex : forall s neg w b v, lex_sized s = Some (neg, w, b, v) -> (dec_value 0 w <= 2147483647)%N ->
  is_number_sized s = digits_ok b v.
Proof.
  intros s neg w b v H Hw. destruct (split_of_lex _ _ _ _ _ H) as (Hs & Hd & He & Hb).
  unfold is_number_sized. rewrite Hs, (atoi_value w Hd He), (proj2 (N.leb_le _ _) Hw). reflexivity.
Qed.

(** Digits of each base. *)
Definition base_digits (b : ascii) : string :=
  if Ascii.eqb b "b"%char then "01xz" else if Ascii.eqb b "d"%char then "0123456789xz" else "0123456789abcdefABCDEFxz".
Lemma in_chars : forall c l, existsb (Ascii.eqb c) l = true <-> In c l.
Proof.
  intros c l. rewrite existsb_exists. split; [intros (x & H & E); apply Ascii.eqb_eq in E; now subst|]. intros H. exists c. split; [exact H|apply Ascii.eqb_refl].
Qed.
Lemma bin_chars : forall c, Ascii.eqb c "0"%char || Ascii.eqb c "1"%char || xzb c = existsb (Ascii.eqb c) (list_ascii_of_string "01xz").
Proof. intros [[] [] [] [] [] [] [] []]; reflexivity. Qed.
Lemma dec_chars : forall c, digitb c || xzb c = existsb (Ascii.eqb c) (list_ascii_of_string "0123456789xz").
Proof. intros [[] [] [] [] [] [] [] []]; reflexivity. Qed.
Lemma hex_chars : forall c, valueb c = existsb (Ascii.eqb c) (list_ascii_of_string "0123456789abcdefABCDEFxz").
Proof. intros [[] [] [] [] [] [] [] []]; reflexivity. Qed.
Lemma all_chars_In : forall p s, all_chars p s = true <-> forall c, In c (list_ascii_of_string s) -> p c = true.
Proof.
  intros p. induction s as [|a s IH]; cbn; [split; [intros _ c []|reflexivity]|]. rewrite andb_true_iff, IH. split.
  - intros [H1 H2] c [<-|H]; auto.
  - intros H. split; [apply H; now left|]. intros c Hc. apply H. now right.
Qed.
Lemma digits_ok_spec : forall b v, digits_ok b v = true <-> forall c, In c (list_ascii_of_string v) -> In c (list_ascii_of_string (base_digits b)).
Proof.
  intros b v. unfold digits_ok, base_digits. destruct (Ascii.eqb b "b"%char); [|destruct (Ascii.eqb b "d"%char)]; rewrite all_chars_In; split; intros H c Hc; specialize (H c Hc);
    [rewrite <- in_chars, <- bin_chars|rewrite bin_chars, in_chars|rewrite <- in_chars, <- dec_chars|rewrite dec_chars, in_chars|rewrite <- in_chars, <- hex_chars|rewrite hex_chars, in_chars]; exact H.
Qed.
