From Coq Require Import ZArith List Bool Lia ZifyBool.
From Verif Require Import WidthModel.
Import ListNotations.
Local Open Scope Z_scope.

Fixpoint pow2b (p : positive) : bool :=
  match p with xH => true | xO q => pow2b q | xI _ => false end.

Lemma jhp2_loop_eq : forall p a b,
  jhp2_loop p a b = (a + Z.log2 (Zpos p) + 1, b && pow2b p).
Proof.
  induction p as [q IH|q IH|]; intros a b; cbn [jhp2_loop pow2b].
  - rewrite IH. rewrite andb_false_r. cbn [andb]. f_equal.
    change (Z.pos q~1) with (2 * Z.pos q + 1). rewrite Z.log2_succ_double by lia. lia.
  - rewrite IH. f_equal.
    change (Z.pos q~0) with (2 * Z.pos q). rewrite Z.log2_double by lia. lia.
  - rewrite andb_true_r. f_equal. cbn. lia.
Qed.

Lemma pow2b_true : forall p, pow2b p = true -> Zpos p = 2 ^ Z.log2 (Zpos p).
Proof.
  induction p as [q IH|q IH|]; cbn [pow2b]; intros H; try discriminate; [|reflexivity].
  change (Z.pos q~0) with (2 * Z.pos q). rewrite Z.log2_double by lia.
  rewrite Z.pow_succ_r by apply Z.log2_nonneg. rewrite <- IH by exact H. reflexivity.
Qed.

Lemma pow2b_pow : forall k, 0 <= k -> forall p, Zpos p = 2 ^ k -> pow2b p = true.
Proof.
  intros k Hk. pattern k. apply natlike_ind; [| |exact Hk].
  - intros p H. cbn in H. inversion H; subst. reflexivity.
  - intros x Hx IH p H. rewrite Z.pow_succ_r in H by lia.
    destruct p as [q|q|].
    + exfalso. assert (E : Z.odd (Z.pos q~1) = Z.odd (2 * 2 ^ x)) by (rewrite H; reflexivity).
      rewrite Z.odd_mul in E. cbn in E. discriminate.
    + cbn [pow2b]. apply IH. change (Z.pos q~0) with (2 * Z.pos q) in H. lia.
    + reflexivity.
Qed.

Lemma jhp2_spec : forall n, 1 <= n ->
  0 <= justHigherPow2 n /\ n <= 2 ^ justHigherPow2 n /\
  forall w, 0 <= w -> n <= 2 ^ w -> justHigherPow2 n <= w.
Proof.
  intros n Hn. destruct n as [|p|p]; try lia.
  unfold justHigherPow2. rewrite jhp2_loop_eq. cbn [andb].
  assert (L0 := Z.log2_nonneg (Zpos p)).
  destruct (Z.log2_spec (Zpos p) ltac:(lia)) as [Lo Hi].
  destruct (pow2b p) eqn:E.
  - replace (0 + Z.log2 (Z.pos p) + 1 - 1) with (Z.log2 (Z.pos p)) by lia.
    assert (E' := pow2b_true p E). repeat split; try lia.
    intros w Hw Hle. rewrite E' in Hle. apply Z.pow_le_mono_r_iff in Hle; lia.
  - replace (0 + Z.log2 (Z.pos p) + 1) with (Z.succ (Z.log2 (Z.pos p))) by lia.
    repeat split; try lia.
    intros w Hw Hle.
    destruct (Z.le_gt_cases (Z.succ (Z.log2 (Z.pos p))) w) as [|Hlt]; [assumption|exfalso].
    assert (2 ^ w <= 2 ^ Z.log2 (Z.pos p)) by (apply Z.pow_le_mono_r; lia).
    assert (Zpos p = 2 ^ Z.log2 (Z.pos p)) by lia.
    rewrite (pow2b_pow (Z.log2 (Zpos p)) L0 p) in E by assumption. discriminate.
Qed.

Lemma jhp2_unique : forall n w, 1 <= n -> 0 <= w -> n <= 2 ^ w ->
  (w = 0 \/ 2 ^ (w - 1) < n) -> justHigherPow2 n = w.
Proof.
  intros n w Hn Hw Hle Hlt.
  destruct (jhp2_spec n Hn) as (H0 & H1 & H2).
  specialize (H2 w Hw Hle).
  destruct Hlt as [->|Hlt]; [lia|].
  destruct (Z.eq_dec (justHigherPow2 n) w); [assumption|exfalso].
  assert (2 ^ justHigherPow2 n <= 2 ^ (w - 1)) by (apply Z.pow_le_mono_r; lia). lia.
Qed.

Lemma jhp2_nonpos : forall n, n <= 0 -> justHigherPow2 n = -1.
Proof. intros [|p|p] H; try reflexivity; lia. Qed.

(** *** state register *)

Lemma width_loop_spec : forall fuel val w r,
  0 <= w -> (w = 0 \/ 2 ^ (w - 1) < val) ->
  width_loop fuel val w = Some r ->
  0 <= r /\ val <= 2 ^ r /\ (r = 0 \/ 2 ^ (r - 1) < val).
Proof.
  induction fuel as [|f IH]; intros val w r Hw Hp H; [discriminate|].
  cbn [width_loop] in H. destruct (val >? 2 ^ w) eqn:E.
  - apply (IH val (w + 1) r); [lia| |exact H]. right. replace (w + 1 - 1) with w by lia. lia.
  - inversion H; subst. split; [lia|]. split; [lia|]. exact Hp.
Qed.

Lemma width_loop_total : forall fuel val w,
  0 <= w -> val <= 2 ^ (w + Z.of_nat fuel - 1) -> (0 < fuel)%nat ->
  exists r, width_loop fuel val w = Some r.
Proof.
  induction fuel as [|f IH]; intros val w Hw H Hf; [lia|].
  cbn [width_loop]. destruct (val >? 2 ^ w) eqn:E; [|eauto].
  destruct f as [|f].
  - exfalso. replace (w + Z.of_nat 1 - 1) with w in H by lia. lia.
  - apply IH; [lia| |lia]. replace (w + 1 + Z.of_nat (S f) - 1) with (w + Z.of_nat (S (S f)) - 1) by lia. exact H.
Qed.

Lemma width_total : forall val, 1 <= val <= 2 ^ 30 -> exists w, width val = Some w.
Proof.
  intros val H. unfold width. destruct (val <=? 0) eqn:E; [lia|].
  destruct (val =? 1); [eauto|]. apply width_loop_total; [lia| |lia]. cbn [Z.of_nat]. exact (proj2 H).
Qed.

Lemma width_spec : forall val w, width val = Some w -> 1 <= w /\ val <= 2 ^ w /\ (w = 1 \/ 2 ^ (w - 1) < val).
Proof.
  intros val w H. unfold width in H. destruct (val <=? 0) eqn:E; [discriminate|].
  destruct (val =? 1) eqn:E1.
  - inversion H; subst. cbn. lia.
  - apply width_loop_spec in H; [|lia|lia]. destruct H as (H0 & H1 & H2).
    assert (w <> 0). { intros ->. cbn in H1. lia. }
    split; [lia|]. split; [lia|]. lia.
Qed.

Lemma onehot_distinct : forall a b ca cb,
  toFSMState true a = Some ca -> toFSMState true b = Some cb -> ca = cb -> a = b.
Proof.
  unfold toFSMState. intros a b ca cb Ha Hb E.
  destruct ((0 <=? a) && (a <? 31)) eqn:Ea; [|discriminate].
  destruct ((0 <=? b) && (b <? 31)) eqn:Eb; [|discriminate].
  inversion Ha; inversion Hb; subst.
  apply Z.pow_inj_r in H1; lia.
Qed.

Lemma register_holds_states : forall oneHot maxState w,
  1 <= maxState -> indexRegisterWidth oneHot maxState = Some w ->
  forall s c, 0 <= s < maxState -> toFSMState oneHot s = Some c -> 0 <= c < 2 ^ w.
Proof.
  intros oneHot maxState w HM HW s c Hs Hc. destruct oneHot; cbn in HW, Hc.
  - inversion HW; subst. destruct ((0 <=? s) && (s <? 31)) eqn:E; [|discriminate].
    inversion Hc; subst. split; [apply Z.pow_nonneg; lia|]. apply Z.pow_lt_mono_r; lia.
  - inversion Hc; subst. apply width_spec in HW. lia.
Qed.

Lemma codes_distinct : forall oneHot a b ca cb,
  toFSMState oneHot a = Some ca -> toFSMState oneHot b = Some cb -> a <> b -> ca <> cb.
Proof.
  intros [] a b ca cb Ha Hb Hne E.
  - apply Hne. eapply onehot_distinct; eauto.
  - cbn in *. congruence.
Qed.

Lemma return_value_binary : forall maxState s, 1 <= maxState <= 2 ^ 30 -> 0 <= s < maxState ->
  returnIndexValue false maxState s = toFSMState false s.
Proof.
  intros M s HM Hs. unfold returnIndexValue, stateWidth.
  destruct (width_total M HM) as [w Hw]. rewrite Hw. cbn. f_equal.
  unfold sized_literal. apply Z.mod_small. apply width_spec in Hw. lia.
Qed.

(** *** define width *)
Lemma define_width_fits : forall i, 1 <= i -> 0 <= i < 2 ^ defineWidth i.
Proof.
  intros i H. unfold defineWidth. destruct (jhp2_spec i H) as (A & B & _).
  rewrite Z.pow_add_r by lia. lia.
Qed.

(** *** RISC-V *)

Lemma jhp2_times4 : forall m, 1 <= m -> justHigherPow2 (4 * m) = justHigherPow2 m + 2.
Proof.
  intros m Hm. destruct (jhp2_spec m Hm) as (A & B & C).
  apply jhp2_unique; try lia.
  - rewrite Z.pow_add_r by lia. change (2 ^ 2) with 4. lia.
  - destruct (Z.eq_dec (justHigherPow2 m) 0) as [E|E].
    + right. rewrite E. change (2 ^ (0 + 2 - 1)) with 2. lia.
    + right. destruct (Z.le_gt_cases m (2 ^ (justHigherPow2 m - 1))) as [Hle|Hgt].
      * apply C in Hle; lia.
      * replace (justHigherPow2 m + 2 - 1) with (justHigherPow2 m - 1 + 2) by lia.
        rewrite Z.pow_add_r by lia. change (2 ^ 2) with 4. lia.
Qed.

Lemma lor_pow_testbit : forall b n k, 0 <= b -> 0 <= n -> 0 <= k ->
  Z.testbit (Z.lor (2 ^ b) (2 ^ n)) k = (k =? b) || (k =? n).
Proof.
  intros b n k Hb Hn Hk. rewrite Z.lor_spec.
  f_equal.
  - destruct (k =? b) eqn:E.
    + apply Z.eqb_eq in E; subst. apply Z.pow2_bits_true; lia.
    + apply Z.pow2_bits_false. lia.
  - destruct (k =? n) eqn:E.
    + apply Z.eqb_eq in E; subst. apply Z.pow2_bits_true; lia.
    + apply Z.pow2_bits_false. lia.
Qed.

Lemma riscv_addrs_spec : forall nios base n l,
  0 <= base -> 0 <= n ->
  riscv_addrs (2 ^ base) (2 ^ n) nios = Some l ->
  length l = nios /\
  forall i a, nth_error l i = Some a ->
    a = Z.lor (2 ^ base) (2 ^ (n + Z.of_nat i)) /\ n + Z.of_nat i < base - 1 + 0.
Proof.
  induction nios as [|m IH]; intros base n l Hb Hn H; cbn [riscv_addrs] in H.
  - inversion H; subst. split; [reflexivity|]. intros [|i] a Ha; discriminate.
  - rewrite Z.shiftl_mul_pow2 in H by lia. rewrite Z.pow_1_r in H.
    replace (2 ^ n * 2) with (2 ^ (n + 1)) in H by (rewrite Z.pow_add_r by lia; lia).
    destruct (2 ^ (n + 1) >=? 2 ^ base) eqn:E; [discriminate|].
    destruct (riscv_addrs (2 ^ base) (2 ^ (n + 1)) m) as [l'|] eqn:E2; [|discriminate].
    inversion H; subst. apply IH in E2; [|lia|lia]. destruct E2 as [Hl Hi].
    split; [cbn; congruence|].
    intros [|i] a Ha; cbn in Ha.
    + inversion Ha; subst. replace (n + Z.of_nat 0) with n by lia. split; [reflexivity|].
      assert (2 ^ (n + 1) < 2 ^ base) as Hlt by lia.
      apply Z.pow_lt_mono_r_iff in Hlt; lia.
    + apply Hi in Ha. replace (n + Z.of_nat (S i)) with (n + 1 + Z.of_nat i) by lia. exact Ha.
Qed.

Lemma riscv_c_addresses_spec : forall mem nios l,
  riscv_c_addresses mem nios = Some l ->
  length l = nios /\
  forall i a, nth_error l i = Some a ->
    a = Z.lor (2 ^ justHigherPow2 mem) (2 ^ (2 + Z.of_nat i)) /\
    2 + Z.of_nat i < justHigherPow2 mem - 1.
Proof.
  intros mem nios l H. unfold riscv_c_addresses in H.
  destruct (riscv_mem_ok mem && (mem <=? 2 ^ 30)) eqn:E; [|discriminate].
  apply andb_true_iff in E. destruct E as [E _].
  unfold riscv_mem_ok in E. apply andb_true_iff in E. destruct E as [E1 E2].
  destruct (jhp2_spec mem ltac:(lia)) as (A & B & C).
  rewrite Z.shiftl_mul_pow2 in H by lia. rewrite Z.mul_1_l in H.
  change 4 with (2 ^ 2) in H. apply riscv_addrs_spec in H; [|lia|lia].
  destruct H as [Hl Hi]. split; [assumption|].
  intros i a Ha. apply Hi in Ha. destruct Ha; split; [assumption|lia].
Qed.

Lemma register_ok : forall (oneHot : bool) (maxState : Z),
  1 <= maxState -> (if oneHot then maxState <= 31 else maxState <= 2 ^ 30) ->
  exists w, indexRegisterWidth oneHot maxState = Some w /\
    (forall s, 0 <= s < maxState -> exists c, toFSMState oneHot s = Some c /\ 0 <= c < 2 ^ w /\
        (oneHot = true -> c = 2 ^ s)) /\
    (forall a b ca cb, toFSMState oneHot a = Some ca -> toFSMState oneHot b = Some cb -> a <> b -> ca <> cb).
Proof.
  intros oneHot M H1 H2.
  assert (HW : exists w, indexRegisterWidth oneHot M = Some w).
  { destruct oneHot; cbn; [eauto|]. apply width_total; lia. }
  destruct HW as [w HW]. exists w. split; [assumption|]. split.
  - intros s Hs.
    assert (HC : exists c, toFSMState oneHot s = Some c /\ (oneHot = true -> c = 2 ^ s)).
    { unfold toFSMState. destruct oneHot.
      - replace ((0 <=? s) && (s <? 31)) with true by lia. eauto.
      - exists s; split; [reflexivity|discriminate]. }
    destruct HC as (c & HC & Hone). exists c. split; [assumption|]. split; [|assumption].
    eapply register_holds_states; eauto.
  - intros a b ca cb. apply codes_distinct.
Qed.

Lemma onehot_return_lost : forall M w s,
  stateWidth M = Some w -> w <= s < 31 -> returnIndexValue true M s = Some 0.
Proof.
  intros M w s HW Hs. unfold returnIndexValue. rewrite HW. unfold toFSMState.
  apply width_spec in HW. replace ((0 <=? s) && (s <? 31)) with true by lia.
  unfold sized_literal. f_equal. apply Z.mod_divide; [apply Z.pow_nonzero; lia|].
  exists (2 ^ (s - w)). rewrite <- Z.pow_add_r by lia. f_equal. lia.
Qed.

Lemma mem_address_covers : forall n a, 1 <= n -> 0 <= a < n -> 0 <= a < 2 ^ mem_addr_width n.
Proof.
  intros n a Hn Ha. unfold mem_addr_width. destruct (jhp2_spec n Hn) as (A & B & C). lia.
Qed.

Lemma riscv_map_ok : forall mem nios l,
  riscv_c_addresses mem nios = Some l ->
  length l = nios /\
  forall i a, nth_error l i = Some a ->
    io_select a (external_bit mem) = true /\
    (forall j, 0 <= j < Z.of_nat nios -> io_select a j = (j =? Z.of_nat i)) /\
    0 <= word_addr a < 2 ^ addrW mem /\
    (forall b, 0 <= b < mem -> io_select b (external_bit mem) = false) /\
    mem <= a.
Proof.
  intros mem nios l H.
  assert (Hmem : 0 < mem /\ mem mod 4 = 0).
  { unfold riscv_c_addresses in H. destruct (riscv_mem_ok mem && (mem <=? 2 ^ 30)) eqn:E; [|discriminate].
    apply andb_true_iff in E. destruct E as [E _].
    unfold riscv_mem_ok in E. lia. }
  destruct Hmem as [Hpos Hmod].
  destruct (jhp2_spec mem ltac:(lia)) as (A & B & C).
  apply riscv_c_addresses_spec in H. destruct H as [Hlen Hi]. split; [assumption|].
  intros i a Ha.
  assert (Hin : (i < nios)%nat). { rewrite <- Hlen. apply nth_error_Some. congruence. }
  assert (Hlast : 2 + (Z.of_nat nios - 1) < justHigherPow2 mem - 1).
  { destruct (nth_error l (nios - 1)) as [b|] eqn:E.
    - apply Hi in E. lia.
    - apply nth_error_None in E. lia. }
  apply Hi in Ha. destruct Ha as [Ea Hlt]. subst a.
  assert (Hbit : forall j, 0 <= j -> io_select (Z.lor (2 ^ justHigherPow2 mem) (2 ^ (2 + Z.of_nat i))) j
             = (j + 2 =? justHigherPow2 mem) || (j + 2 =? 2 + Z.of_nat i)).
  { intros j Hj. unfold io_select, word_addr. rewrite Z.shiftr_spec by lia.
    apply lor_pow_testbit; lia. }
  assert (Hm4 : mem = 4 * (mem / 4)) by (apply Z_div_exact_2; lia).
  assert (Hj4 : justHigherPow2 mem = justHigherPow2 (mem / 4) + 2).
  { rewrite Hm4 at 1. apply jhp2_times4. lia. }
  assert (Hdis : Z.lor (2 ^ justHigherPow2 mem) (2 ^ (2 + Z.of_nat i))
                 = 2 ^ justHigherPow2 mem + 2 ^ (2 + Z.of_nat i)).
  { assert (HL : Z.land (2 ^ justHigherPow2 mem) (2 ^ (2 + Z.of_nat i)) = 0);
      [|rewrite (Z.add_nocarry_lxor _ _ HL); symmetry; apply Z.lxor_lor; exact HL].
    { apply Z.bits_inj'. intros k Hk. rewrite Z.land_spec, Z.bits_0.
      destruct (Z.eq_dec k (justHigherPow2 mem)) as [->|Hne].
      + rewrite (Z.pow2_bits_false (2 + Z.of_nat i)) by lia. apply andb_false_r.
      + rewrite (Z.pow2_bits_false (justHigherPow2 mem)) by lia. reflexivity. } }
  assert (Hlt2 : 2 ^ (2 + Z.of_nat i) < 2 ^ justHigherPow2 mem) by (apply Z.pow_lt_mono_r; lia).
  assert (Hp0 : 0 < 2 ^ (2 + Z.of_nat i)) by (apply Z.pow_pos_nonneg; lia).
  repeat split.
  - rewrite Hbit by (unfold external_bit; lia). unfold external_bit. lia.
  - intros j Hj. rewrite Hbit by lia. lia.
  - unfold word_addr. rewrite Z.shiftr_div_pow2 by lia. apply Z.div_pos; lia.
  - unfold word_addr. rewrite Z.shiftr_div_pow2 by lia. apply Z.div_lt_upper_bound; [lia|].
    unfold addrW. rewrite Hdis. rewrite <- Z.pow_add_r by lia.
    replace (2 + (1 + justHigherPow2 (mem / 4))) with (Z.succ (justHigherPow2 mem)) by lia.
    rewrite Z.pow_succ_r by lia. lia.
  - intros b Hb. unfold io_select, word_addr, external_bit. rewrite Z.shiftr_spec by lia.
    replace (justHigherPow2 mem - 2 + 2) with (justHigherPow2 mem) by lia.
    destruct (Z.eq_dec b 0) as [->|Hb0]; [apply Z.testbit_0_l|].
    apply Z.bits_above_log2; [lia|]. apply Z.log2_lt_pow2; lia.
  - rewrite Hdis. lia.
Qed.

Lemma onehot_return_lost_code : forall M w s,
  stateWidth M = Some w -> w <= s < 31 ->
  returnIndexValue true M s = Some 0 /\ forall t, toFSMState true t <> Some 0.
Proof.
  intros M w s HW Hs. split; [eapply onehot_return_lost; eauto|].
  intros t H. unfold toFSMState in H. destruct ((0 <=? t) && (t <? 31)) eqn:E; [|discriminate].
  inversion H as [H1]. assert (0 < 2 ^ t) by (apply Z.pow_pos_nonneg; lia). lia.
Qed.

Lemma define_value_kept : forall i, 1 <= i -> sized_literal (defineWidth i) i = i.
Proof. intros i H. unfold sized_literal. apply Z.mod_small. apply define_width_fits; assumption. Qed.

Lemma return_default_binary : forall maxState, 1 <= maxState <= 2 ^ 30 -> returnDefaultValue maxState = toFSMState false 0.
Proof.
  intros m H. rewrite <- (return_value_binary m 0) by lia. unfold returnDefaultValue, returnIndexValue. cbn [toFSMState]. reflexivity.
Qed.
Lemma return_default_onehot : forall maxState v, returnDefaultValue maxState = Some v -> forall t, toFSMState true t <> Some v.
Proof.
  intros m v H t T. unfold returnDefaultValue in H. destruct (stateWidth m) as [w|]; [|discriminate]. injection H as <-.
  unfold sized_literal, terminationState in T. rewrite Zmod_0_l in T.
  unfold toFSMState in T. destruct ((0 <=? t) && (t <? 31)) eqn:E; [|discriminate].
  injection T as T. assert (0 < 2 ^ t) by (apply Z.pow_pos_nonneg; lia). lia.
Qed.
