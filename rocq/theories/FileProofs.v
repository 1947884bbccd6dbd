(** Values of the texts written for tables. *)
From Coq Require Import String Ascii List Bool Arith NArith ZArith Lia.
From Verif Require Import LiteralModel LiteralProofs TableModel FileModel.
Import ListNotations.
Local Open Scope string_scope.

(** Numbers of Verilog texts: hexadecimal literals and decimal numbers. *)
Definition hex_char (c : ascii) : option N :=
  let n := N_of_ascii c in
  if (48 <=? n)%N && (n <=? 57)%N then Some (n - 48)%N else if (65 <=? n)%N && (n <=? 70)%N then Some (n - 55)%N else if (97 <=? n)%N && (n <=? 102)%N then Some (n - 87)%N else None.
Fixpoint hex_value (acc : N) (s : string) : option N :=
  match s with "" => Some acc | String c r => match hex_char c with Some d => hex_value (16 * acc + d)%N r | None => None end end.
Definition signed_by (neg : bool) (n : N) : Z := if neg then (- Z.of_N n)%Z else Z.of_N n.
Definition number (s : string) : option Z :=
  match verilog_read s with
  | Some (neg, w, b, v) => if Ascii.eqb b "h" then option_map (fun n => signed_by neg (n mod 2 ^ w)%N) (hex_value 0 v) else None
  | None => let (neg, r) := strip_minus s in if negb (empty r) && all_chars digitb r then Some (signed_by neg (dec_value 0 r)) else None
  end.
(** The bits an entry of [width] bits gets. *)
Definition stored (width : N) (s : string) : option Z := option_map (fun z => (z mod 2 ^ Z.of_N width)%Z) (number s).

Lemma small : forall n k, (n < N.of_nat k)%N -> In n (map N.of_nat (seq 0 k)).
Proof. intros n k H. apply in_map_iff. exists (N.to_nat n). split; [lia|]. apply in_seq. lia. Qed.
Lemma hex_digit_char : forall n, (n < 16)%N -> hex_char (hex_digit n) = Some n.
Proof.
  intros n H. apply (small n 16) in H. cbn in H. repeat (destruct H as [ <-|H]; [reflexivity|]). contradiction.
Qed.
Lemma hex_value_app : forall a b acc, hex_value acc (a ++ b) = match hex_value acc a with Some x => hex_value x b | None => None end.
Proof. induction a as [|c r IH]; intros b acc; [reflexivity|]. cbn [hex_value append]. destruct (hex_char c); [apply IH|reflexivity]. Qed.
Lemma hex_value_hex : forall k n acc, hex_value acc (hex k n) = Some (acc * 16 ^ N.of_nat k + n mod 16 ^ N.of_nat k)%N.
Proof.
  induction k as [|k IH]; intros n acc.
  - cbn [hex hex_value N.of_nat]. rewrite N.pow_0_r, N.mod_1_r, N.mul_1_r, N.add_0_r. reflexivity.
  - cbn [hex]. rewrite hex_value_app, IH. cbn [hex_value]. rewrite hex_digit_char by (apply N.mod_lt; lia).
    replace (N.of_nat (S k)) with (N.succ (N.of_nat k)) by lia. rewrite N.pow_succ_r'. f_equal.
    assert (P : (16 ^ N.of_nat k <> 0)%N) by (apply N.pow_nonzero; lia). rewrite (N.mod_mul_r n 16 (16 ^ N.of_nat k)) by lia. lia.
Qed.
Lemma word_bound : forall l, Forall (fun b => (b < 256)%N) l -> (word l < 256 ^ N.of_nat (length l))%N.
Proof.
  induction l as [|b l IH]; intro H; [reflexivity|]. inversion H as [|? ? H1 H2]; subst. specialize (IH H2). cbn [word length].
  replace (N.of_nat (S (length l))) with (N.succ (N.of_nat (length l))) by lia. rewrite N.pow_succ_r'. lia.
Qed.
Lemma verilog_file_text : forall w v, verilog_read (to_string w ++ "'h" ++ v) = Some (false, w, "h"%char, v).
Proof.
  intros w v. unfold verilog_read. assert (M : strip_minus (to_string w ++ "'h" ++ v) = (false, to_string w ++ "'h" ++ v)).
  { pose proof (to_string_digits w) as D. pose proof (to_string_nonempty w) as E. destruct (to_string w) as [|c r]; [discriminate|]. cbn [append strip_minus].
    cbn [all_chars] in D. apply andb_true_iff in D. destruct D as [D _]. destruct (Ascii.eqb c "-") eqn:Q; [apply Ascii.eqb_eq in Q; subst c; discriminate|reflexivity]. }
  rewrite M. change ("'h" ++ v) with (String "'" (String "h" v)). rewrite span_digits_app; [|apply to_string_digits|reflexivity].
  rewrite to_string_nonempty, to_string_value. reflexivity.
Qed.
Lemma stored_file : forall size v, (v < 256 ^ N.of_nat size)%N -> stored (N.of_nat (8 * size)) (file_text size v) = Some (Z.of_N v).
Proof.
  intros size v H. unfold stored, number, file_text. rewrite verilog_file_text, Ascii.eqb_refl, hex_value_hex. cbn [option_map signed_by].
  assert (E1 : (16 ^ N.of_nat (2 * size) = 256 ^ N.of_nat size)%N) by (rewrite Nat2N.inj_mul, N.pow_mul_r; reflexivity).
  assert (E2 : (2 ^ N.of_nat (8 * size) = 256 ^ N.of_nat size)%N) by (rewrite Nat2N.inj_mul, N.pow_mul_r; reflexivity).
  rewrite E1, E2, N.mul_0_l, N.add_0_l, !(N.mod_small v) by assumption. f_equal. apply Z.mod_small.
  change 2%Z with (Z.of_N 2). rewrite <- N2Z.inj_pow, E2. lia.
Qed.
Lemma read_digits : forall s, all_chars digitb s = true -> span_digits s = (s, "").
Proof. induction s as [|c r IH]; intro H; [reflexivity|]. cbn [all_chars span_digits] in *. apply andb_true_iff in H. destruct H as [-> H]. rewrite (IH H). reflexivity. Qed.
Lemma number_int : forall z, number (int_text z) = Some z.
Proof.
  assert (P : forall n, strip_minus (to_string n) = (false, to_string n)).
  { intro n. pose proof (to_string_digits n) as D. pose proof (to_string_nonempty n) as E. destruct (to_string n) as [|c r]; [discriminate|]. cbn [strip_minus].
    cbn [all_chars] in D. apply andb_true_iff in D. destruct D as [D _]. destruct (Ascii.eqb c "-") eqn:Q; [apply Ascii.eqb_eq in Q; subst c; discriminate|reflexivity]. }
  assert (Q : forall n, number (to_string n) = Some (Z.of_N n)).
  { intro n. unfold number, verilog_read. rewrite P, (read_digits _ (to_string_digits n)), to_string_nonempty, to_string_digits, to_string_value. reflexivity. }
  intro z. destruct z as [|p|p]; cbn [int_text]; [apply (Q 0%N)|rewrite Q; reflexivity|].
  unfold number, verilog_read. change ("-" ++ to_string (N.pos p)) with (String "-" (to_string (N.pos p))). cbn [strip_minus]. rewrite Ascii.eqb_refl.
  rewrite (read_digits _ (to_string_digits _)), to_string_nonempty, to_string_digits, to_string_value. reflexivity.
Qed.

Lemma words_nth : forall size, (0 < size)%nat -> forall fuel f i, (length f <= fuel)%nat ->
  nth_error (words fuel size f) i = if ((i + 1) * size <=? length f)%nat then Some (word (firstn size (skipn (i * size) f))) else None.
Proof.
  intros size HS. induction fuel as [|k IH]; intros f i L.
  - destruct f; [|cbn in L; lia]. cbn [words length]. destruct (Nat.leb_spec ((i + 1) * size) 0); [nia|]. destruct i; reflexivity.
  - cbn [words]. destruct (Nat.ltb_spec (length f) size).
    + destruct (Nat.leb_spec ((i + 1) * size) (length f)); [nia|]. destruct i; reflexivity.
    + destruct i as [|i].
      * cbn [nth_error]. destruct (Nat.leb_spec ((0 + 1) * size) (length f)); [reflexivity|lia].
      * cbn [nth_error]. rewrite IH by (rewrite skipn_length; lia). rewrite skipn_length.
        assert (E : skipn (i * size) (skipn size f) = skipn (S i * size) f).
        { replace (S i * size)%nat with (size + i * size)%nat by lia. generalize (i * size)%nat as j. clear. revert f. induction size as [|s IH]; intros f j; [reflexivity|].
          destruct f as [|x f]; [destruct j; reflexivity|]. cbn [skipn plus]. apply IH. }
        rewrite E. destruct (Nat.leb_spec ((i + 1) * size) (length f - size)), (Nat.leb_spec ((S i + 1) * size) (length f)); try reflexivity; nia.
Qed.
Lemma words_length : forall size, (0 < size)%nat -> forall fuel f, (length f <= fuel)%nat -> length (words fuel size f) = (length f / size)%nat.
Proof.
  intros size HS. induction fuel as [|k IH]; intros f L.
  - destruct f; [|cbn in L; lia]. cbn. rewrite Nat.div_0_l; lia.
  - cbn [words]. destruct (Nat.ltb_spec (length f) size); [rewrite Nat.div_small by assumption; reflexivity|].
    cbn [length]. rewrite IH by (rewrite skipn_length; lia). rewrite skipn_length. replace (length f) with ((length f - size) + 1 * size)%nat at 2 by lia. rewrite Nat.div_add by lia. lia.
Qed.
