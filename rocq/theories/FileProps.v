(** C26, continued: the values stored in tables initialized from files and strings. *)
From Coq Require Import String Ascii List Bool Arith NArith ZArith Lia.
From Verif Require Import LiteralModel LiteralProofs TableModel TableProofs FileModel FileProofs.
Import ListNotations.
Local Open Scope string_scope.

(** The [i]-th integer of [size] bytes of a file, lowest byte first. *)
Fixpoint sum (k : nat) (g : nat -> N) : N := match k with O => 0%N | S k' => (sum k' g + g k')%N end.
Definition integer_at (size : nat) (f : list N) (i : nat) : N := sum size (fun j => (nth (i * size + j) f 0 * 256 ^ N.of_nat j)%N).
Definition bytes (f : list N) : Prop := Forall (fun b => (b < 256)%N) f.

Lemma sum_first : forall k g, sum (S k) g = (g O + sum k (fun j => g (S j)))%N.
Proof. induction k as [|k IH]; intro g; [cbn; lia|]. cbn [sum]. cbn [sum] in IH. rewrite IH. lia. Qed.
Lemma sum_ext : forall k g h, (forall j, (j < k)%nat -> g j = h j) -> sum k g = sum k h.
Proof. induction k as [|k IH]; intros g h H; [reflexivity|]. cbn [sum]. rewrite (IH g h); [rewrite H by lia; reflexivity|]. intros j L. apply H. lia. Qed.
Lemma sum_scale : forall k c g, sum k (fun j => (c * g j)%N) = (c * sum k g)%N.
Proof. induction k as [|k IH]; intros c g; [cbn; lia|]. cbn [sum]. rewrite IH. lia. Qed.
Lemma word_sum : forall l, word l = sum (length l) (fun j => (nth j l 0 * 256 ^ N.of_nat j)%N).
Proof.
  induction l as [|b l IH]; [reflexivity|]. cbn [length word]. rewrite sum_first. cbn [nth]. change (N.of_nat 0) with 0%N. rewrite N.pow_0_r, N.mul_1_r, IH, <- sum_scale. f_equal.
  apply sum_ext. intros j _. replace (N.of_nat (S j)) with (N.succ (N.of_nat j)) by lia. rewrite N.pow_succ_r'. lia.
Qed.
Lemma nth_skipn : forall (f : list N) a j, nth j (skipn a f) 0%N = nth (a + j) f 0%N.
Proof. induction f as [|x f IH]; intros a j; [rewrite skipn_nil; destruct j, (a + _)%nat; reflexivity|]. destruct a; [reflexivity|]. cbn [skipn plus nth]. apply IH. Qed.
Lemma nth_firstn : forall (f : list N) a j, (j < a)%nat -> nth j (firstn a f) 0%N = nth j f 0%N.
Proof. induction f as [|x f IH]; intros a j L; [rewrite firstn_nil; reflexivity|]. destruct a; [lia|]. destruct j; [reflexivity|]. cbn [firstn nth]. apply IH. lia. Qed.
Lemma word_at : forall size f i, ((i + 1) * size <= length f)%nat -> word (firstn size (skipn (i * size) f)) = integer_at size f i.
Proof.
  intros size f i L. rewrite word_sum. unfold integer_at. assert (E : length (firstn size (skipn (i * size) f)) = size) by (rewrite firstn_length, skipn_length; nia). rewrite E.
  apply sum_ext. intros j Lj. rewrite nth_firstn, nth_skipn by exact Lj. reflexivity.
Qed.
Lemma bytes_part : forall f a b, bytes f -> bytes (firstn a (skipn b f)).
Proof.
  intros f a b H. apply Forall_forall. intros x I. unfold bytes in H. rewrite Forall_forall in H. apply H. rewrite <- (firstn_skipn b f). apply in_app_iff. right.
  rewrite <- (firstn_skipn a (skipn b f)). apply in_app_iff. left. exact I.
Qed.
Definition word_size (width : N) (size : nat) : Prop := width = N.of_nat (8 * size) /\ (size = 1 \/ size = 2 \/ size = 4)%nat.
Lemma file_values_eq : forall width f l, file_values width f = Some l <-> exists size, word_size width size /\ l = map (file_text size) (words (length f) size f).
Proof.
  intros width f l. unfold file_values, word_size. split.
  - destruct (N.eqb_spec width 8) as [ ->|N1]; [intro H; injection H as <-; exists 1%nat; split; [split; [reflexivity|auto]|reflexivity]|].
    destruct (N.eqb_spec width 16) as [ ->|N2]; [intro H; injection H as <-; exists 2%nat; split; [split; [reflexivity|auto]|reflexivity]|].
    destruct (N.eqb_spec width 32) as [ ->|N3]; [intro H; injection H as <-; exists 4%nat; split; [split; [reflexivity|auto]|reflexivity]|discriminate].
  - intros (size & (-> & [ ->|[ ->| ->]]) & ->); reflexivity.
Qed.

(** Files are accepted exactly for tables of 8, 16 and 32 bits. *)
Theorem C26_file_width : forall width f, file_values width f <> None <-> (width = 8 \/ width = 16 \/ width = 32)%N.
Proof.
  intros width f. destruct (file_values width f) as [l|] eqn:E; split; intro H; try congruence.
  - apply file_values_eq in E. destruct E as (size & (-> & [ ->|[ ->| ->]]) & _); auto.
  - destruct H as [ ->|[ ->| ->]]; discriminate.
Qed.
Lemma file_entry : forall width size f l i, word_size width size -> bytes f -> l = map (file_text size) (words (length f) size f) ->
  (i < length f / size)%nat -> exists s, nth_error l i = Some s /\ stored width s = Some (Z.of_N (integer_at size f i)).
Proof.
  intros width size f l i [-> S3] B -> L. assert (S0 : (0 < size)%nat) by lia. pose proof (Nat.mul_div_le (length f) size ltac:(lia)) as M.
  assert (Q : ((i + 1) * size <= length f)%nat) by nia. eexists. split.
  - rewrite nth_error_map, words_nth by auto. apply Nat.leb_le in Q. rewrite Q. reflexivity.
  - rewrite stored_file, word_at by (exact Q || (eapply N.lt_le_trans; [apply word_bound; apply bytes_part; exact B|]; apply N.pow_le_mono_r; [lia|]; rewrite firstn_length; lia)). reflexivity.
Qed.
(** Without a size the table has one entry per complete integer of the file, and entry [i] is the [i]-th one. *)
Theorem C26_file : forall width f p t, bytes f -> file_table width 0 f p = Some t -> exists size, width = N.of_nat (8 * size) /\
  (exists vals, t = Table (length f / size) vals) /\ forall i, (i < length f / size)%nat -> exists s, emitted_init t i = Some s /\ stored width s = Some (Z.of_N (integer_at size f i)).
Proof.
  intros width f p t B H. unfold file_table in H. destruct (file_values width f) as [l|] eqn:E; [|discriminate]. apply file_values_eq in E. destruct E as (size & W & El).
  exists size. split; [apply W|]. rewrite (proj1 (autosize string "0" l p)) in H. injection H as <-.
  assert (LL : length l = (length f / size)%nat) by (rewrite El, map_length; apply words_length; [destruct W; lia|reflexivity]). rewrite LL. split; [eexists; reflexivity|].
  intros i I. exact (file_entry width size f l i W B El I).
Qed.
(** With a size [n], the rest of the table gets the padding; files with more integers are refused. *)
Theorem C26_file_sized : forall width n f p t, bytes f -> (0 < n)%nat -> file_table width n f p = Some t -> exists size, width = N.of_nat (8 * size) /\
  (length f / size <= n)%nat /\ forall i, (i < n)%nat ->
    if (i <? length f / size)%nat then exists s, emitted_init t i = Some s /\ stored width s = Some (Z.of_N (integer_at size f i))
    else emitted_init t i = match p with PadWith v => Some v | _ => None end.
Proof.
  intros width n f p t B Hn H. unfold file_table in H. destruct (file_values width f) as [l|] eqn:E; [|discriminate]. apply file_values_eq in E. destruct E as (size & W & El).
  exists size. split; [apply W|]. assert (LL : length l = (length f / size)%nat) by (rewrite El, map_length; apply words_length; [destruct W; lia|reflexivity]).
  destruct (sized_list string "0" n l p Hn) as [S1 S2]. destruct (S1 t H) as (vals & _ & _ & K). split.
  - assert (A : readInitList "0" n (IList l p) <> None) by congruence. apply S2 in A. lia.
  - intros i I. specialize (K i I). unfold list_content in K. destruct (Nat.ltb_spec i (length f / size)) as [Q|Q].
    + destruct (file_entry width size f l i W B El Q) as (s & N & V). exists s. rewrite N in K. auto.
    + rewrite K. rewrite (proj2 (nth_error_None l i)) by lia. reflexivity.
Qed.
(** The bytes left at the end of a file that is not made of complete integers are dropped without an error. *)
Theorem C26_file_tail_refuted : forall width size f tail, word_size width size -> (length f mod size = 0)%nat -> (length tail < size)%nat ->
  file_values width (f ++ tail)%list = file_values width f.
Proof.
  intros width size f tail W M L. assert (S0 : (0 < size)%nat) by (destruct W; lia).
  assert (E : forall g, file_values width g = Some (map (file_text size) (words (length g) size g))) by (intro g; apply file_values_eq; exists size; auto). rewrite !E. do 2 f_equal.
  assert (R : forall k fu fu' g, length g = (k * size)%nat -> (length g + length tail <= fu)%nat -> (length g <= fu')%nat -> words fu size (g ++ tail)%list = words fu' size g).
  { induction k as [|k IH]; intros fu fu' g G F F'.
    - destruct g; [|cbn in G; lia]. cbn [app]. destruct fu as [|fu], fu' as [|fu']; cbn [words length]; try reflexivity;
      repeat match goal with |- context [(?a <? ?b)%nat] => destruct (Nat.ltb_spec a b); try lia end; reflexivity.
    - destruct fu as [|fu]; [lia|]. destruct fu' as [|fu']; [lia|]. cbn [words]. rewrite app_length.
      destruct (Nat.ltb_spec (length g + length tail) size); [lia|]. destruct (Nat.ltb_spec (length g) size); [lia|].
      rewrite firstn_app, skipn_app. replace (size - length g)%nat with 0%nat by lia. cbn [firstn skipn]. rewrite app_nil_r. f_equal.
      apply IH; rewrite skipn_length; lia. }
  apply (R (length f / size)%nat); [|rewrite app_length; reflexivity|reflexivity]. pose proof (Nat.div_mod (length f) size ltac:(lia)). lia.
Qed.

(** Characters of strings: the code, on the bits of the entries, when it is below 128 or entries have at most 8 bits. *)
Theorem C26_string_codes : forall width size l t i b, bytes l -> string_table size l = Some t -> nth_error l i = Some b -> (b < 128 \/ width <= 8)%N ->
  exists s, emitted_init t i = Some s /\ stored width s = Some (Z.of_N b mod 2 ^ Z.of_N width)%Z.
Proof.
  intros width size l t i b B H N C. exists (char_text b).
  assert (Bb : (b < 256)%N) by (unfold bytes in B; rewrite Forall_forall in B; apply B; apply nth_error_In with i; exact N).
  assert (Li : (i < length l)%nat) by (apply nth_error_Some; congruence). split.
  - unfold string_table in H. destruct (Nat.eq_dec size 0) as [ ->|S0].
    + rewrite (proj2 (autosize string "0" (string_values l) NoPad)) in H. injection H as <-. cbn [emitted_init]. unfold string_values. rewrite nth_error_app1 by (rewrite map_length; exact Li).
      rewrite nth_error_map, N. reflexivity.
    + rewrite (sized_string_content string "0" size (string_values l) t ltac:(lia) H). unfold string_values. rewrite map_length. destruct (Nat.ltb_spec i (length l)); [|lia]. rewrite nth_error_map, N. reflexivity.
  - unfold stored, char_text. rewrite number_int. cbn [option_map]. f_equal. destruct (N.ltb_spec b 128) as [Q|Q]; [reflexivity|]. assert (W : (width <= 8)%N) by lia.
    replace (Z.of_N b - 256)%Z with (Z.of_N b + (- 2 ^ (8 - Z.of_N width)) * 2 ^ Z.of_N width)%Z; [apply Z.mod_add; apply Z.pow_nonzero; lia|].
    rewrite Z.mul_opp_l, <- Z.pow_add_r by lia. replace (8 - Z.of_N width + Z.of_N width)%Z with 8%Z by lia. reflexivity.
Qed.
(** Above, entries of more than 8 bits get another number: characters are signed. *)
Theorem C26_string_wide_refuted : forall width b, (128 <= b)%N -> (b < 256)%N -> (8 < width)%N -> stored width (char_text b) = Some (2 ^ Z.of_N width - 256 + Z.of_N b)%Z.
Proof.
  intros width b B1 B2 W. unfold stored, char_text. rewrite number_int. cbn [option_map]. destruct (N.ltb_spec b 128); [lia|]. f_equal.
  assert (P : (512 <= 2 ^ Z.of_N width)%Z) by (change 512%Z with (2 ^ 9)%Z; apply Z.pow_le_mono_r; lia).
  replace (Z.of_N b - 256)%Z with ((2 ^ Z.of_N width - 256 + Z.of_N b) + (-1) * 2 ^ Z.of_N width)%Z by lia. rewrite Z.mod_add by lia. apply Z.mod_small. lia.
Qed.

Example file_ex : file_table 16 4 [52; 18; 255; 255; 7]%N (PadWith "3") = Some (Table 4 ["16'h1234"; "16'hFFFF"; "3"; "3"]) /\ stored 16 "16'h1234" = Some 4660%Z /\ integer_at 2 [52; 18; 255; 255; 7]%N 0 = 4660%N.
Proof. split; [|split]; vm_compute; reflexivity. Qed.
Example string_ex : string_table 0 [65; 195; 169]%N = Some (Table 4 ["65"; "-61"; "-87"; "0"]) /\ stored 8 "-61" = Some 195%Z /\ stored 16 "-61" = Some 65475%Z.
Proof. split; [|split]; vm_compute; reflexivity. Qed.

Print Assumptions C26_file_width.
Print Assumptions C26_file.
Print Assumptions C26_file_sized.
Print Assumptions C26_file_tail_refuted.
Print Assumptions C26_string_codes.
Print Assumptions C26_string_wide_refuted.
