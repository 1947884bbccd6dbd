From Coq Require Import List Bool Arith ZArith Lia.
From Verif Require Import LintModel.
Import ListNotations.
Local Open Scope Z_scope.

Lemma pow2_pos : forall n, 0 < pow2 n.
Proof. intro n. unfold pow2. apply Z.pow_pos_nonneg; lia. Qed.

Lemma pow2_le : forall n m, (n <= m)%nat -> pow2 n <= pow2 m.
Proof. intros. unfold pow2. apply Z.pow_le_mono_r; lia. Qed.

Lemma pow2_add : forall n m, pow2 (n + m) = pow2 n * pow2 m.
Proof. intros. unfold pow2. rewrite Nat2Z.inj_add. apply Z.pow_add_r; lia. Qed.

Lemma pow2_S : forall n, pow2 (S n) = 2 * pow2 n.
Proof. intro n. unfold pow2. rewrite Nat2Z.inj_succ. apply Z.pow_succ_r. lia. Qed.

Lemma mod_range : forall x n, 0 <= x mod pow2 n < pow2 n.
Proof. intros. apply Z.mod_pos_bound, pow2_pos. Qed.

Lemma bit_range : forall b, 0 <= bit b < 2.
Proof. intros []; cbn; lia. Qed.

(** Bitwise operators stay within [n] bits. *)
Lemma lt_pow2_bits : forall x n, 0 <= x < pow2 n <-> (0 <= x /\ forall i, Z.of_nat n <= i -> Z.testbit x i = false).
Proof.
  intros x n. split.
  - intros [H0 H1]. split; [exact H0|]. intros i Hi. destruct (Z.eq_dec x 0) as [->|Hn]; [apply Z.bits_0|].
    apply Z.bits_above_log2; [exact H0|]. apply Z.lt_le_trans with (Z.of_nat n); [|exact Hi].
    apply Z.log2_lt_pow2; [lia|]. exact H1.
  - intros [H0 H1]. split; [exact H0|]. destruct (Z.eq_dec x 0) as [->|Hn]; [apply pow2_pos|].
    unfold pow2. apply Z.log2_lt_pow2; [lia|].
    destruct (Z_lt_le_dec (Z.log2 x) (Z.of_nat n)) as [Hl|Hl]; [exact Hl|].
    specialize (H1 _ Hl). rewrite Z.bit_log2 in H1 by lia. discriminate.
Qed.

Lemma land_range : forall x y n, 0 <= x < pow2 n -> 0 <= y < pow2 n -> 0 <= Z.land x y < pow2 n.
Proof.
  intros x y n Hx Hy. apply lt_pow2_bits in Hx. apply lt_pow2_bits in Hy. apply lt_pow2_bits.
  destruct Hx as [Hx0 Hx], Hy as [Hy0 Hy]. split; [apply Z.land_nonneg; lia|].
  intros i Hi. rewrite Z.land_spec, Hx by lia. reflexivity.
Qed.
Lemma lor_range : forall x y n, 0 <= x < pow2 n -> 0 <= y < pow2 n -> 0 <= Z.lor x y < pow2 n.
Proof.
  intros x y n Hx Hy. apply lt_pow2_bits in Hx. apply lt_pow2_bits in Hy. apply lt_pow2_bits.
  destruct Hx as [Hx0 Hx], Hy as [Hy0 Hy]. split; [apply Z.lor_nonneg; lia|].
  intros i Hi. rewrite Z.lor_spec, Hx, Hy by lia. reflexivity.
Qed.
Lemma lxor_range : forall x y n, 0 <= x < pow2 n -> 0 <= y < pow2 n -> 0 <= Z.lxor x y < pow2 n.
Proof.
  intros x y n Hx Hy. apply lt_pow2_bits in Hx. apply lt_pow2_bits in Hy. apply lt_pow2_bits.
  destruct Hx as [Hx0 Hx], Hy as [Hy0 Hy]. split; [apply Z.lxor_nonneg; lia|].
  intros i Hi. rewrite Z.lxor_spec, Hx, Hy by lia. reflexivity.
Qed.

Lemma div_range : forall x k n, 0 <= x < pow2 n -> 0 <= k -> 0 <= x / 2 ^ k < pow2 n.
Proof.
  intros x k n Hx Hk. pose proof (Z.pow_pos_nonneg 2 k ltac:(lia) Hk) as Hp. split.
  - apply Z.div_pos; lia.
  - apply Z.le_lt_trans with x; [|lia]. apply Z.div_le_upper_bound; [lia|]. nia.
Qed.

Lemma veval_range : forall G e sg L, 0 <= veval G sg L e < pow2 L.
Proof.
  intros G. induction e as [w v|v|x|o u IH|o a IHa b IHb|c IHc a IHa b IHb|a IHa b IHb|n a IH|a IH|a IH]; intros sg L.
  - apply mod_range.
  - apply mod_range.
  - apply mod_range.
  - destruct o; apply mod_range.
  - destruct o; try apply mod_range; cbn [veval].
    + apply div_range; [apply IHa|]. apply IHb.
    + apply land_range; auto.
    + apply lor_range; auto.
    + apply lxor_range; auto.
  - cbn [veval]. destruct (_ =? 0); auto.
  - apply mod_range.
  - apply mod_range.
  - apply mod_range.
  - apply mod_range.
Qed.

Lemma sized_width : forall G e t, sized_expr G e = true -> type_nfo G e = Some t ->
  1 <= snd t /\ Z.of_nat (vwidth G e) <= snd t.
Proof.
  intros G. induction e as [w v|v|x|o u IH|o a IHa b IHb|c IHc a IHa b IHb|a IHa b IHb|n a IH|a IH|a IH];
    intros t Hs Ht; cbn [sized_expr type_nfo] in Hs, Ht; try discriminate.
  - inversion Ht; subst t. apply Nat.leb_le in Hs. cbn. lia.
  - inversion Ht; subst t. apply Nat.leb_le in Hs. cbn. lia.
  - destruct (type_nfo G u) as [tu|]; [|discriminate]. cbn in Ht. inversion Ht; subst t.
    specialize (IH tu Hs eq_refl). destruct o; cbn; lia.
  - apply andb_prop in Hs. destruct Hs as [Hs1 Hs2].
    destruct (type_nfo G a) as [ta|]; [|discriminate]. destruct (type_nfo G b) as [tb|]; [|discriminate].
    inversion Ht; subst t. specialize (IHa ta Hs1 eq_refl). specialize (IHb tb Hs2 eq_refl).
    destruct o; cbn [apply_op vwidth fst snd]; lia.
  - apply andb_prop in Hs. destruct Hs as [Hs1 Hs2]. destruct (type_nfo G c) as [tc|]; [|discriminate].
    destruct (type_nfo G a) as [ta|]; [|discriminate]. destruct (type_nfo G b) as [tb|]; [|discriminate].
    inversion Ht; subst t. specialize (IHa ta Hs1 eq_refl). specialize (IHb tb Hs2 eq_refl). cbn [vwidth fst snd]; lia.
  - apply andb_prop in Hs. destruct Hs as [Hs1 Hs2].
    destruct (type_nfo G a) as [ta|]; [|discriminate]. destruct (type_nfo G b) as [tb|]; [|discriminate].
    destruct (_ || _); [discriminate|].
    inversion Ht; subst t. specialize (IHa ta Hs1 eq_refl). specialize (IHb tb Hs2 eq_refl). cbn [vwidth fst snd]; lia.
  - destruct (type_nfo G a) as [ta|]; [|discriminate]. cbn in Ht. inversion Ht; subst t.
    specialize (IH ta Hs eq_refl). cbn. lia.
  - destruct (type_nfo G a) as [ta|]; [|discriminate]. cbn in Ht. inversion Ht; subst t.
    specialize (IH ta Hs eq_refl). cbn. lia.
Qed.

(** * Unsigned expressions *)
Lemma small_mod : forall x n, 0 <= x < pow2 n -> x mod pow2 n = x.
Proof. intros. apply Z.mod_small. assumption. Qed.

Lemma le_pow2_Z : forall x w L, 0 <= w -> 0 <= x < 2 ^ w -> w <= Z.of_nat L -> 0 <= x < pow2 L.
Proof.
  intros x w L H0 H1 H2. split; [lia|]. apply Z.lt_le_trans with (2 ^ w); [lia|].
  unfold pow2. apply Z.pow_le_mono_r; lia.
Qed.

Lemma base_UU : base_type_of UInt UInt = UInt. Proof. reflexivity. Qed.
Lemma pow_max_l : forall a b, 0 <= a -> 2 ^ a <= 2 ^ Z.max a b.
Proof. intros. apply Z.pow_le_mono_r; lia. Qed.
Lemma pow_max_r : forall a b, 0 <= b -> 2 ^ b <= 2 ^ Z.max a b.
Proof. intros. apply Z.pow_le_mono_r; lia. Qed.

Lemma zrange_nat : forall x w, 0 <= w -> 0 <= x < pow2 (Z.to_nat w) -> 0 <= x < 2 ^ w.
Proof. intros x w Hw. unfold pow2. rewrite Z2Nat.id by exact Hw. tauto. Qed.
Lemma nat_zrange : forall x w, 0 <= w -> 0 <= x < 2 ^ w -> 0 <= x < pow2 (Z.to_nat w).
Proof. intros x w Hw. unfold pow2. rewrite Z2Nat.id by exact Hw. tauto. Qed.

Definition u_ok (G : env) (e : expr) (t : ty * Z) : Prop :=
  1 <= snd t /\ Z.of_nat (vwidth G e) <= snd t /\ vsigned G e = false /\ 0 <= exact G e < 2 ^ snd t /\
  forall L, snd t <= Z.of_nat L -> veval G false L e = exact G e.

(** Self-determined forms: their value does not depend on the context once it fits. *)
Lemma bit_mod : forall b L, (1 <= L)%nat -> bit b mod pow2 L = bit b.
Proof.
  intros b L HL. apply small_mod. pose proof (bit_range b). pose proof (pow2_le 1 L HL).
  change (pow2 1) with 2 in H0. lia.
Qed.

Lemma bit_ok : forall b, 0 <= bit b < 2 ^ 1.
Proof. intros []; cbn; lia. Qed.
Lemma bit_lt : forall b w, 1 <= w -> 0 <= bit b < 2 ^ w.
Proof. intros b w H. pose proof (bit_range b). assert (2 ^ 1 <= 2 ^ w) by (apply Z.pow_le_mono_r; lia). lia. Qed.

Lemma unsigned_ok : forall G e t, unsigned_expr G e = true -> type_nfo G e = Some t -> u_ok G e t.
Proof.
  intros G. induction e as [w v|v|x|o u IH|o a IHa b IHb|c IHc a IHa b IHb|a IHa b IHb|n a IH|a IH|a IH];
    intros t Hs Ht; cbn [unsigned_expr type_nfo] in Hs, Ht; try discriminate.
  - inversion Ht; subst t. apply Nat.leb_le in Hs. unfold u_ok. cbn [fst snd vwidth vsigned exact veval].
    repeat split; try lia; try apply mod_range. intros L HL. unfold extend. apply small_mod.
    pose proof (mod_range v w). pose proof (pow2_le w L ltac:(lia)). lia.
  - inversion Ht; subst t. apply andb_prop in Hs. destruct Hs as [Hu Hs]. apply Nat.leb_le in Hs.
    destruct (v_type G x) eqn:Ev; [|discriminate].
    unfold u_ok. cbn [fst snd vwidth vsigned exact veval]. rewrite Ev.
    repeat split; try lia; try apply mod_range. intros L HL. unfold extend. apply small_mod.
    pose proof (mod_range (v_val G x) (v_width G x)). pose proof (pow2_le (v_width G x) L ltac:(lia)). lia.
  - destruct (type_nfo G u) as [tu|]; [|discriminate]. cbn in Ht. inversion Ht; subst t.
    destruct o; try discriminate; unfold u_ok; cbn [apply_unary fst snd vwidth vsigned exact veval];
      (split; [lia|]); (split; [lia|]); (split; [reflexivity|]);
      (split; [rewrite bit_mod by lia; apply bit_ok|]); intros L HL; rewrite !bit_mod by lia; reflexivity.
  - destruct (type_nfo G a) as [ta|] eqn:Ea; [|discriminate]. destruct (type_nfo G b) as [tb|] eqn:Eb; [|discriminate].
    inversion Ht; subst t.
    assert (Hbin : (unsigned_expr G a && unsigned_expr G b = true -> u_ok G a ta /\ u_ok G b tb)).
    { intro H. apply andb_prop in H. destruct H as [H1 H2]. split; [apply IHa|apply IHb]; auto. }
    destruct o; try discriminate.
    + destruct (Hbin Hs) as [(A2 & A3 & A4 & A5 & A6) (B2 & B3 & B4 & B5 & B6)].
      assert (Hr : 0 <= exact G a + exact G b < 2 ^ (Z.max (snd ta) (snd tb) + 1)).
      { rewrite Z.pow_add_r by lia. pose proof (pow_max_l (snd ta) (snd tb) ltac:(lia)).
        pose proof (pow_max_r (snd ta) (snd tb) ltac:(lia)). lia. }
      unfold u_ok. cbn [apply_op fst snd vwidth vsigned exact veval]. rewrite A4, B4. cbn [andb].
      repeat split; try lia. intros L HL. rewrite A6, B6 by lia. apply small_mod.
      (eapply le_pow2_Z; [|exact Hr|exact HL]; lia).
    + destruct (Hbin Hs) as [(A2 & A3 & A4 & A5 & A6) (B2 & B3 & B4 & B5 & B6)].
      assert (Hr : 0 <= exact G a * exact G b < 2 ^ (snd ta + snd tb)).
      { rewrite Z.pow_add_r by lia. nia. }
      unfold u_ok. cbn [apply_op fst snd vwidth vsigned exact veval]. rewrite A4, B4. cbn [andb].
      repeat split; try lia. intros L HL. rewrite A6, B6 by lia. apply small_mod.
      (eapply le_pow2_Z; [|exact Hr|exact HL]; lia).
    + destruct (IHa ta Hs eq_refl) as (A2 & A3 & A4 & A5 & A6).
      pose proof (veval_range G b false (vwidth G b)) as Hk.
      assert (Hr : 0 <= exact G a / 2 ^ veval G false (vwidth G b) b < 2 ^ snd ta).
      { apply zrange_nat; [lia|]. apply div_range; [|lia]. apply nat_zrange; lia. }
      unfold u_ok. cbn [apply_op fst snd vwidth vsigned exact veval]. repeat split; try lia; try assumption.
      intros L HL. rewrite A6 by lia. reflexivity.
    + destruct (IHa ta Hs eq_refl) as (A2 & A3 & A4 & A5 & A6).
      pose proof (veval_range G b false (vwidth G b)) as Hk.
      assert (Hr : 0 <= exact G a / 2 ^ veval G false (vwidth G b) b < 2 ^ Z.max (snd ta) (snd tb)).
      { pose proof (pow_max_l (snd ta) (snd tb) ltac:(lia)).
        assert (0 <= exact G a / 2 ^ veval G false (vwidth G b) b < 2 ^ snd ta); [|lia].
        apply zrange_nat; [lia|]. apply div_range; [|lia]. apply nat_zrange; lia. }
      unfold u_ok. cbn [apply_op fst snd vwidth vsigned exact veval]. 
      repeat split; try lia; try assumption.
      intros L HL. rewrite A6 by lia. apply small_mod. (eapply le_pow2_Z; [|exact Hr|exact HL]; lia).
    + unfold u_ok; cbn [apply_op fst snd vwidth vsigned exact veval].
      (split; [lia|]); (split; [lia|]); (split; [reflexivity|]);
      (split; [rewrite bit_mod by lia; apply bit_ok|]); intros L HL; rewrite !bit_mod by lia; reflexivity.
    + unfold u_ok; cbn [apply_op fst snd vwidth vsigned exact veval].
      (split; [lia|]); (split; [lia|]); (split; [reflexivity|]);
      (split; [rewrite bit_mod by lia; apply bit_ok|]); intros L HL; rewrite !bit_mod by lia; reflexivity.
    + unfold u_ok; cbn [apply_op fst snd vwidth vsigned exact veval].
      (split; [lia|]); (split; [lia|]); (split; [reflexivity|]);
      (split; [rewrite bit_mod by lia; apply bit_ok|]); intros L HL; rewrite !bit_mod by lia; reflexivity.
    + unfold u_ok; cbn [apply_op fst snd vwidth vsigned exact veval].
      (split; [lia|]); (split; [lia|]); (split; [reflexivity|]);
      (split; [rewrite bit_mod by lia; apply bit_ok|]); intros L HL; rewrite !bit_mod by lia; reflexivity.
    + unfold u_ok; cbn [apply_op fst snd vwidth vsigned exact veval].
      (split; [lia|]); (split; [lia|]); (split; [reflexivity|]);
      (split; [rewrite bit_mod by lia; apply bit_ok|]); intros L HL; rewrite !bit_mod by lia; reflexivity.
    + unfold u_ok; cbn [apply_op fst snd vwidth vsigned exact veval].
      (split; [lia|]); (split; [lia|]); (split; [reflexivity|]);
      (split; [rewrite bit_mod by lia; apply bit_ok|]); intros L HL; rewrite !bit_mod by lia; reflexivity.
    + destruct (Hbin Hs) as [(A2 & A3 & A4 & A5 & A6) (B2 & B3 & B4 & B5 & B6)].
      pose proof (pow_max_l (snd ta) (snd tb) ltac:(lia)). pose proof (pow_max_r (snd ta) (snd tb) ltac:(lia)).
      assert (Hr : 0 <= Z.land (exact G a) (exact G b) < 2 ^ (Z.max (snd ta) (snd tb))).
      { apply zrange_nat; [lia|]. apply land_range; apply nat_zrange; lia. }
      unfold u_ok. cbn [apply_op fst snd vwidth vsigned exact veval]. rewrite A4, B4. cbn [andb].
      repeat split; try lia. intros L HL. rewrite A6, B6 by lia. reflexivity.
    + destruct (Hbin Hs) as [(A2 & A3 & A4 & A5 & A6) (B2 & B3 & B4 & B5 & B6)].
      pose proof (pow_max_l (snd ta) (snd tb) ltac:(lia)). pose proof (pow_max_r (snd ta) (snd tb) ltac:(lia)).
      assert (Hr : 0 <= Z.lor (exact G a) (exact G b) < 2 ^ (Z.max (snd ta) (snd tb))).
      { apply zrange_nat; [lia|]. apply lor_range; apply nat_zrange; lia. }
      unfold u_ok. cbn [apply_op fst snd vwidth vsigned exact veval]. rewrite A4, B4. cbn [andb].
      repeat split; try lia. intros L HL. rewrite A6, B6 by lia. reflexivity.
    + destruct (Hbin Hs) as [(A2 & A3 & A4 & A5 & A6) (B2 & B3 & B4 & B5 & B6)].
      pose proof (pow_max_l (snd ta) (snd tb) ltac:(lia)). pose proof (pow_max_r (snd ta) (snd tb) ltac:(lia)).
      assert (Hr : 0 <= Z.lxor (exact G a) (exact G b) < 2 ^ (Z.max (snd ta) (snd tb))).
      { apply zrange_nat; [lia|]. apply lxor_range; apply nat_zrange; lia. }
      unfold u_ok. cbn [apply_op fst snd vwidth vsigned exact veval]. rewrite A4, B4. cbn [andb].
      repeat split; try lia. intros L HL. rewrite A6, B6 by lia. reflexivity.
    + apply andb_prop in Hs. destruct Hs as [Hs1 Hs2].
      destruct (sized_width G a ta Hs1 Ea) as [Wa _]. destruct (sized_width G b tb Hs2 Eb) as [Wb _].
      unfold u_ok; cbn [apply_op fst snd vwidth vsigned exact veval].
      (split; [lia|]); (split; [lia|]); (split; [reflexivity|]);
      (split; [rewrite bit_mod by lia; apply bit_lt; lia|]); intros L HL; rewrite !bit_mod by lia; reflexivity.
    + apply andb_prop in Hs. destruct Hs as [Hs1 Hs2].
      destruct (sized_width G a ta Hs1 Ea) as [Wa _]. destruct (sized_width G b tb Hs2 Eb) as [Wb _].
      unfold u_ok; cbn [apply_op fst snd vwidth vsigned exact veval].
      (split; [lia|]); (split; [lia|]); (split; [reflexivity|]);
      (split; [rewrite bit_mod by lia; apply bit_lt; lia|]); intros L HL; rewrite !bit_mod by lia; reflexivity.
  - destruct (type_nfo G c) as [tc|] eqn:Ec; [|discriminate].
    destruct (type_nfo G a) as [ta|] eqn:Ea; [|discriminate]. destruct (type_nfo G b) as [tb|] eqn:Eb; [|discriminate].
    inversion Ht; subst t. apply andb_prop in Hs. destruct Hs as [Hs1 Hs2].
    destruct (IHa ta Hs1 eq_refl) as (A2 & A3 & A4 & A5 & A6). destruct (IHb tb Hs2 eq_refl) as (B2 & B3 & B4 & B5 & B6).
    pose proof (pow_max_l (snd ta) (snd tb) ltac:(lia)). pose proof (pow_max_r (snd ta) (snd tb) ltac:(lia)).
    unfold u_ok. cbn [fst snd vwidth vsigned exact veval]. rewrite A4, B4.
    (split; [lia|]); (split; [lia|]); (split; [reflexivity|]). split.
    + destruct (_ =? 0); lia.
    + intros L HL. destruct (_ =? 0); [apply B6|apply A6]; lia.
  - destruct (type_nfo G a) as [ta|] eqn:Ea; [|discriminate]. destruct (type_nfo G b) as [tb|] eqn:Eb; [|discriminate].
    destruct (_ || _); [discriminate|]. inversion Ht; subst t. apply andb_prop in Hs. destruct Hs as [Hs1 Hs2].
    destruct (sized_width G a ta Hs1 Ea) as [Wa Va]. destruct (sized_width G b tb Hs2 Eb) as [Wb Vb].
    pose proof (veval_range G a (vsigned G a) (vwidth G a)) as Ra.
    pose proof (veval_range G b (vsigned G b) (vwidth G b)) as Rb.
    assert (Hr : 0 <= veval G (vsigned G a) (vwidth G a) a * pow2 (vwidth G b) + veval G (vsigned G b) (vwidth G b) b
                 < pow2 (vwidth G a + vwidth G b)). { rewrite pow2_add. nia. }
    assert (Hp : forall L, snd ta + snd tb <= Z.of_nat L -> pow2 (vwidth G a + vwidth G b) <= pow2 L).
    { intros L HL. apply pow2_le. lia. }
    unfold u_ok. cbn [fst snd vwidth vsigned exact veval].
    (split; [lia|]); (split; [lia|]); (split; [reflexivity|]). split.
    + rewrite small_mod by exact Hr. specialize (Hp (Z.to_nat (snd ta + snd tb)) ltac:(lia)).
      apply zrange_nat; lia.
    + intros L HL. rewrite small_mod by (specialize (Hp L HL); lia). rewrite small_mod by exact Hr. reflexivity.
  - destruct (type_nfo G a) as [ta|] eqn:Ea; [|discriminate]. cbn in Ht. inversion Ht; subst t.
    destruct (sized_width G a ta Hs Ea) as [Wa Va].
    pose proof (veval_range G a (vsigned G a) (vwidth G a)) as Ra.
    unfold u_ok. cbn [fst snd vwidth vsigned exact veval].
    (split; [lia|]); (split; [lia|]); (split; [reflexivity|]). rewrite (small_mod _ _ Ra). split.
    + pose proof (pow2_le (vwidth G a) (Z.to_nat (snd ta)) ltac:(lia)). apply zrange_nat; lia.
    + intros L HL. apply small_mod. pose proof (pow2_le (vwidth G a) L ltac:(lia)). lia.
Qed.

Lemma unsigned_assigned : forall G e t lw, unsigned_expr G e = true -> type_nfo G e = Some t ->
  warns_width lw t = false -> assigned G lw e = exact G e.
Proof.
  intros G e t lw Hu Ht Hw. destruct (unsigned_ok G e t Hu Ht) as (A2 & A3 & A4 & A5 & A6).
  unfold warns_width in Hw. apply Z.ltb_ge in Hw. unfold assigned. rewrite A4, A6 by lia.
  apply small_mod. apply (le_pow2_Z _ (snd t)); lia.
Qed.

(** * Signed expressions *)
Definition s_in (w : Z) (x : Z) : Prop := - 2 ^ (w - 1) <= x < 2 ^ (w - 1).

Lemma s_in_mono : forall w w' x, 1 <= w -> w <= w' -> s_in w x -> s_in w' x.
Proof.
  intros w w' x H0 H1 [H2 H3]. assert (2 ^ (w - 1) <= 2 ^ (w' - 1)) by (apply Z.pow_le_mono_r; lia). unfold s_in. lia.
Qed.

Lemma pow2_half : forall n, (1 <= n)%nat -> pow2 n = 2 * 2 ^ (Z.of_nat n - 1).
Proof.
  intros n Hn. destruct n as [|n]; [lia|]. rewrite pow2_S. unfold pow2. do 2 f_equal. lia.
Qed.

Lemma to_signed_range : forall n x, (1 <= n)%nat -> 0 <= x < pow2 n -> s_in (Z.of_nat n) (to_signed n x).
Proof.
  intros n x Hn Hx. unfold s_in, to_signed. pose proof (pow2_half n Hn).
  destruct (pow2 n <=? 2 * x) eqn:E; [apply Z.leb_le in E|apply Z.leb_gt in E]; lia.
Qed.

Lemma to_signed_mod : forall n x, to_signed n x mod pow2 n = x mod pow2 n.
Proof.
  intros n x. unfold to_signed. destruct (_ <=? _); [|reflexivity].
  replace (x - pow2 n) with (x + (-1) * pow2 n) by lia. apply Z.mod_add. pose proof (pow2_pos n). lia.
Qed.

Lemma to_signed_of_mod : forall n x, (1 <= n)%nat -> s_in (Z.of_nat n) x -> to_signed n (x mod pow2 n) = x.
Proof.
  intros n x Hn [H0 H1]. pose proof (pow2_half n Hn) as Hh. unfold to_signed. destruct (Z_lt_le_dec x 0) as [Hneg|Hpos].
  - assert (E : x mod pow2 n = x + pow2 n).
    { rewrite <- (Z.mod_add x 1) by lia. rewrite Z.mul_1_l. apply Z.mod_small. lia. }
    rewrite E. destruct (_ <=? _) eqn:El; [lia|]. apply Z.leb_gt in El. lia.
  - rewrite Z.mod_small by lia. destruct (_ <=? _) eqn:El; [|reflexivity]. apply Z.leb_le in El. lia.
Qed.

(** Bitwise operations and reduction modulo a power of two. *)
Lemma testbit_mod_pow2 : forall x n i, 0 <= i -> Z.testbit (x mod pow2 n) i = if i <? Z.of_nat n then Z.testbit x i else false.
Proof.
  intros x n i Hi. unfold pow2. destruct (i <? Z.of_nat n) eqn:E.
  - apply Z.ltb_lt in E. apply Z.mod_pow2_bits_low. lia.
  - apply Z.ltb_ge in E. apply Z.mod_pow2_bits_high. lia.
Qed.

Lemma land_mod : forall x y n, Z.land (x mod pow2 n) (y mod pow2 n) = Z.land x y mod pow2 n.
Proof.
  intros. apply Z.bits_inj'. intros i Hi. rewrite Z.land_spec, !testbit_mod_pow2, Z.land_spec by lia.
  destruct (i <? Z.of_nat n); reflexivity.
Qed.
Lemma lor_mod : forall x y n, Z.lor (x mod pow2 n) (y mod pow2 n) = Z.lor x y mod pow2 n.
Proof.
  intros. apply Z.bits_inj'. intros i Hi. rewrite Z.lor_spec, !testbit_mod_pow2, Z.lor_spec by lia.
  destruct (i <? Z.of_nat n); reflexivity.
Qed.
Lemma lxor_mod : forall x y n, Z.lxor (x mod pow2 n) (y mod pow2 n) = Z.lxor x y mod pow2 n.
Proof.
  intros. apply Z.bits_inj'. intros i Hi. rewrite Z.lxor_spec, !testbit_mod_pow2, Z.lxor_spec by lia.
  destruct (i <? Z.of_nat n); reflexivity.
Qed.

(** A number fits in [w] signed bits exactly when all its bits from [w-1] on are equal. *)
Lemma s_in_bits : forall w x, 1 <= w -> s_in w x -> forall i, w - 1 <= i -> Z.testbit x i = (x <? 0).
Proof.
  intros w x Hw [H0 H1] i Hi. destruct (x <? 0) eqn:E.
  - apply Z.ltb_lt in E. 
    replace x with (- - x) by lia. rewrite Z.bits_opp by lia. apply negb_true_iff.
    destruct (Z.eq_dec (Z.pred (- x)) 0) as [->|Hn]; [apply Z.bits_0|].
    apply Z.bits_above_log2; [lia|]. apply Z.lt_le_trans with (w - 1); [|lia]. apply Z.log2_lt_pow2; lia.
  - apply Z.ltb_ge in E. destruct (Z.eq_dec x 0) as [->|Hn]; [apply Z.bits_0|].
    apply Z.bits_above_log2; [lia|]. apply Z.lt_le_trans with (w - 1); [|lia]. apply Z.log2_lt_pow2; lia.
Qed.

Lemma bits_s_in : forall w x, 1 <= w -> (forall i, w - 1 <= i -> Z.testbit x i = (x <? 0)) -> s_in w x.
Proof.
  intros w x Hw H. unfold s_in. pose proof (Z.pow_pos_nonneg 2 (w - 1) ltac:(lia) ltac:(lia)) as Hp.
  destruct (x <? 0) eqn:E.
  - apply Z.ltb_lt in E. split; [|lia]. 
    destruct (Z.eq_dec (Z.pred (- x)) 0) as [Hz|Hn]; [lia|].
    assert (Hl : Z.pred (- x) < 2 ^ (w - 1)); [|lia]. apply Z.log2_lt_pow2; [lia|].
    destruct (Z_lt_le_dec (Z.log2 (Z.pred (- x))) (w - 1)) as [Hl|Hl]; [exact Hl|].
    specialize (H _ Hl). replace x with (- - x) in H at 1 by lia. rewrite Z.bits_opp in H by lia.
    rewrite Z.bit_log2 in H by lia. discriminate.
  - apply Z.ltb_ge in E. split; [lia|]. destruct (Z.eq_dec x 0) as [->|Hn]; [lia|].
    apply Z.log2_lt_pow2; [lia|]. destruct (Z_lt_le_dec (Z.log2 x) (w - 1)) as [Hl|Hl]; [exact Hl|].
    specialize (H _ Hl). rewrite Z.bit_log2 in H by lia. discriminate.
Qed.

Lemma land_neg : forall x y, (Z.land x y <? 0) = (x <? 0) && (y <? 0).
Proof.
  intros. apply Bool.eq_iff_eq_true. rewrite andb_true_iff, !Z.ltb_lt. apply Z.land_neg.
Qed.
Lemma lor_neg : forall x y, (Z.lor x y <? 0) = (x <? 0) || (y <? 0).
Proof.
  intros. apply Bool.eq_iff_eq_true. rewrite orb_true_iff, !Z.ltb_lt. apply Z.lor_neg.
Qed.
Lemma lxor_neg : forall x y, (Z.lxor x y <? 0) = xorb (x <? 0) (y <? 0).
Proof.
  intros. pose proof (Z.lxor_nonneg x y) as H.
  destruct (Z.lxor x y <? 0) eqn:E, (x <? 0) eqn:Ex, (y <? 0) eqn:Ey; try reflexivity; exfalso;
    rewrite ?Z.ltb_lt, ?Z.ltb_ge in *; lia.
Qed.

Lemma land_s_in : forall w x y, 1 <= w -> s_in w x -> s_in w y -> s_in w (Z.land x y).
Proof.
  intros w x y Hw Hx Hy. apply bits_s_in; [exact Hw|]. intros i Hi.
  rewrite Z.land_spec, (s_in_bits w x), (s_in_bits w y), land_neg by assumption. reflexivity.
Qed.
Lemma lor_s_in : forall w x y, 1 <= w -> s_in w x -> s_in w y -> s_in w (Z.lor x y).
Proof.
  intros w x y Hw Hx Hy. apply bits_s_in; [exact Hw|]. intros i Hi.
  rewrite Z.lor_spec, (s_in_bits w x), (s_in_bits w y), lor_neg by assumption. reflexivity.
Qed.
Lemma lxor_s_in : forall w x y, 1 <= w -> s_in w x -> s_in w y -> s_in w (Z.lxor x y).
Proof.
  intros w x y Hw Hx Hy. apply bits_s_in; [exact Hw|]. intros i Hi.
  rewrite Z.lxor_spec, (s_in_bits w x), (s_in_bits w y), lxor_neg by assumption. reflexivity.
Qed.

Definition s_ok (G : env) (e : expr) (t : ty * Z) : Prop :=
  1 <= snd t /\ Z.of_nat (vwidth G e) <= snd t /\ vsigned G e = true /\ s_in (snd t) (exact G e) /\
  forall L, snd t <= Z.of_nat L -> veval G true L e = exact G e mod pow2 L.

Lemma div_s_in : forall w x k, 1 <= w -> 0 <= k -> s_in w x -> s_in w (x / 2 ^ k).
Proof.
  intros w x k Hw Hk [H0 H1]. pose proof (Z.pow_pos_nonneg 2 k ltac:(lia) Hk) as Hp. unfold s_in. split.
  - apply Z.div_le_lower_bound; [lia|]. pose proof (Z.pow_pos_nonneg 2 (w - 1) ltac:(lia) ltac:(lia)). nia.
  - apply Z.div_lt_upper_bound; [lia|]. nia.
Qed.

Lemma mod_of_smaller : forall w L x, (1 <= w)%nat -> (w <= L)%nat -> 0 <= x < pow2 w ->
  extend true w L x = to_signed w x mod pow2 L.
Proof. intros. reflexivity. Qed.

Lemma signed_ok : forall G e t, signed_expr G e = true -> type_nfo G e = Some t -> s_ok G e t.
Proof.
  intros G. induction e as [w v|v|x|o u IH|o a IHa b IHb|c IHc a IHa b IHb|a IHa b IHb|n a IH|a IH|a IH];
    intros t Hs Ht; cbn [signed_expr type_nfo] in Hs, Ht; try discriminate.
  - inversion Ht; subst t. apply andb_prop in Hs. destruct Hs as [Hu Hs]. apply Nat.leb_le in Hs.
    destruct (v_type G x) eqn:Ev; [discriminate|].
    unfold s_ok. cbn [fst snd vwidth vsigned exact veval]. rewrite Ev.
    (split; [lia|]); (split; [lia|]); (split; [reflexivity|]). split; [|intros L HL; reflexivity].
    apply to_signed_range; [exact Hs|apply mod_range].
  - destruct (type_nfo G a) as [ta|] eqn:Ea; [|discriminate]. destruct (type_nfo G b) as [tb|] eqn:Eb; [|discriminate].
    inversion Ht; subst t.
    assert (Hbin : (signed_expr G a && signed_expr G b = true -> s_ok G a ta /\ s_ok G b tb)).
    { intro H. apply andb_prop in H. destruct H as [H1 H2]. split; [apply IHa|apply IHb]; auto. }
    destruct o; try discriminate; unfold s_ok; cbn [apply_op fst snd vwidth vsigned exact veval].
    + destruct (Hbin Hs) as [(A2 & A3 & A4 & A5 & A6) (B2 & B3 & B4 & B5 & B6)]. rewrite A4, B4.
      (split; [lia|]); (split; [lia|]); (split; [reflexivity|]).
      apply (s_in_mono _ (Z.max (snd ta) (snd tb))) in A5, B5; try lia. split.
      * unfold s_in in *. replace (Z.max (snd ta) (snd tb) + 1 - 1) with (1 + (Z.max (snd ta) (snd tb) - 1)) by lia.
        rewrite Z.pow_add_r by lia. lia.
      * intros L HL. rewrite A6, B6 by lia. rewrite <- Z.add_mod by (pose proof (pow2_pos L); lia). reflexivity.
    + destruct (Hbin Hs) as [(A2 & A3 & A4 & A5 & A6) (B2 & B3 & B4 & B5 & B6)]. rewrite A4, B4.
      (split; [lia|]); (split; [lia|]); (split; [reflexivity|]).
      apply (s_in_mono _ (Z.max (snd ta) (snd tb))) in A5, B5; try lia. split.
      * unfold s_in in *. replace (Z.max (snd ta) (snd tb) + 1 - 1) with (1 + (Z.max (snd ta) (snd tb) - 1)) by lia.
        rewrite Z.pow_add_r by lia. lia.
      * intros L HL. rewrite A6, B6 by lia. rewrite <- Zminus_mod. reflexivity.
    + destruct (Hbin Hs) as [(A2 & A3 & A4 & A5 & A6) (B2 & B3 & B4 & B5 & B6)]. rewrite A4, B4.
      (split; [lia|]); (split; [lia|]); (split; [reflexivity|]). split.
      * unfold s_in in *. replace (snd ta + snd tb - 1) with (1 + (snd ta - 1) + (snd tb - 1)) by lia.
        rewrite !Z.pow_add_r by lia. pose proof (Z.pow_pos_nonneg 2 (snd ta - 1) ltac:(lia) ltac:(lia)).
        pose proof (Z.pow_pos_nonneg 2 (snd tb - 1) ltac:(lia) ltac:(lia)).
        set (p := 2 ^ (snd ta - 1)) in *. set (q := 2 ^ (snd tb - 1)) in *. change (2 ^ 1) with 2.
        assert (Habs : Z.abs (exact G a * exact G b) <= p * q).
        { rewrite Z.abs_mul. apply Z.mul_le_mono_nonneg; lia. }
        assert (0 < p * q) by (apply Z.mul_pos_pos; lia). lia.
      * intros L HL. rewrite A6, B6 by lia. rewrite <- Z.mul_mod by (pose proof (pow2_pos L); lia). reflexivity.
    + destruct (IHa ta Hs eq_refl) as (A2 & A3 & A4 & A5 & A6).
      pose proof (veval_range G b false (vwidth G b)) as Hk.
      (split; [lia|]); (split; [lia|]); (split; [exact A4|]).
      split.
      * apply (s_in_mono (snd ta)); [lia|lia|]. apply div_s_in; [lia|lia|assumption].
      * intros L HL. rewrite A6 by lia. rewrite to_signed_of_mod; [reflexivity|lia|].
        apply (s_in_mono (snd ta)); [lia|lia|assumption].
    + destruct (Hbin Hs) as [(A2 & A3 & A4 & A5 & A6) (B2 & B3 & B4 & B5 & B6)]. rewrite A4, B4.
      (split; [lia|]); (split; [lia|]); (split; [reflexivity|]).
      apply (s_in_mono _ (Z.max (snd ta) (snd tb))) in A5, B5; try lia. split.
      * apply land_s_in; [lia|assumption|assumption].
      * intros L HL. rewrite A6, B6 by lia. apply land_mod.
    + destruct (Hbin Hs) as [(A2 & A3 & A4 & A5 & A6) (B2 & B3 & B4 & B5 & B6)]. rewrite A4, B4.
      (split; [lia|]); (split; [lia|]); (split; [reflexivity|]).
      apply (s_in_mono _ (Z.max (snd ta) (snd tb))) in A5, B5; try lia. split.
      * apply lor_s_in; [lia|assumption|assumption].
      * intros L HL. rewrite A6, B6 by lia. apply lor_mod.
    + destruct (Hbin Hs) as [(A2 & A3 & A4 & A5 & A6) (B2 & B3 & B4 & B5 & B6)]. rewrite A4, B4.
      (split; [lia|]); (split; [lia|]); (split; [reflexivity|]).
      apply (s_in_mono _ (Z.max (snd ta) (snd tb))) in A5, B5; try lia. split.
      * apply lxor_s_in; [lia|assumption|assumption].
      * intros L HL. rewrite A6, B6 by lia. apply lxor_mod.
  - destruct (type_nfo G c) as [tc|] eqn:Ec; [|discriminate].
    destruct (type_nfo G a) as [ta|] eqn:Ea; [|discriminate]. destruct (type_nfo G b) as [tb|] eqn:Eb; [|discriminate].
    inversion Ht; subst t. apply andb_prop in Hs. destruct Hs as [Hs1 Hs2].
    destruct (IHa ta Hs1 eq_refl) as (A2 & A3 & A4 & A5 & A6). destruct (IHb tb Hs2 eq_refl) as (B2 & B3 & B4 & B5 & B6).
    apply (s_in_mono _ (Z.max (snd ta) (snd tb))) in A5, B5; try lia.
    unfold s_ok. cbn [fst snd vwidth vsigned exact veval]. rewrite A4, B4.
    (split; [lia|]); (split; [lia|]); (split; [reflexivity|]). split.
    + destruct (_ =? 0); assumption.
    + intros L HL. destruct (_ =? 0); [apply B6|apply A6]; lia.
  - destruct (type_nfo G a) as [ta|] eqn:Ea; [|discriminate]. cbn in Ht. inversion Ht; subst t.
    destruct (sized_width G a ta Hs Ea) as [Wa Va].
    pose proof (veval_range G a (vsigned G a) (vwidth G a)) as Ra.
    unfold s_ok. cbn [fst snd vwidth vsigned exact veval].
    (split; [lia|]); (split; [lia|]); (split; [reflexivity|]). split; [|intros L HL; reflexivity].
    destruct (Nat.eq_dec (vwidth G a) 0) as [Hz|Hz].
    + rewrite Hz in *. change (pow2 0) with 1 in Ra. replace (veval _ _ _ _) with 0 by lia.
      unfold s_in. pose proof (Z.pow_pos_nonneg 2 (snd ta - 1) ltac:(lia) ltac:(lia)). cbn. lia.
    + apply (s_in_mono (Z.of_nat (vwidth G a))); [lia|lia|]. apply to_signed_range; [lia|exact Ra].
Qed.

Lemma signed_assigned : forall G e t lw, signed_expr G e = true -> type_nfo G e = Some t ->
  warns_width lw t = false -> to_signed lw (assigned G lw e) = exact G e.
Proof.
  intros G e t lw Hu Ht Hw. destruct (signed_ok G e t Hu Ht) as (A2 & A3 & A4 & A5 & A6).
  unfold warns_width in Hw. apply Z.ltb_ge in Hw. unfold assigned. rewrite A4, A6 by lia.
  rewrite Nat.max_l by lia. rewrite Z.mod_mod by (pose proof (pow2_pos lw); lia).
  apply to_signed_of_mod; [lia|]. apply (s_in_mono (snd t)); [lia|lia|assumption].
Qed.

Lemma difference_assigned : forall G a b t lw, unsigned_expr G a = true -> unsigned_expr G b = true ->
  type_nfo G (Bin Sub a b) = Some t -> warns_width lw t = false ->
  to_signed lw (assigned G lw (Bin Sub a b)) = exact G a - exact G b.
Proof.
  intros G a b t lw Ha Hb Ht Hw. cbn [type_nfo] in Ht.
  destruct (type_nfo G a) as [ta|] eqn:Ea; [|discriminate]. destruct (type_nfo G b) as [tb|] eqn:Eb; [|discriminate].
  inversion Ht; subst t. unfold warns_width in Hw. apply Z.ltb_ge in Hw. cbn [apply_op snd] in Hw.
  destruct (unsigned_ok G a ta Ha Ea) as (A2 & A3 & A4 & A5 & A6).
  destruct (unsigned_ok G b tb Hb Eb) as (B2 & B3 & B4 & B5 & B6).
  unfold assigned. cbn [vsigned vwidth veval]. rewrite A4, B4. cbn [andb]. rewrite A6, B6 by lia.
  rewrite Nat.max_l by lia. rewrite Z.mod_mod by (pose proof (pow2_pos lw); lia).
  apply to_signed_of_mod; [lia|]. apply (s_in_mono (Z.max (snd ta) (snd tb) + 1)); [lia|lia|].
  unfold s_in. replace (Z.max (snd ta) (snd tb) + 1 - 1) with (Z.max (snd ta) (snd tb)) by lia.
  pose proof (pow_max_l (snd ta) (snd tb) ltac:(lia)). pose proof (pow_max_r (snd ta) (snd tb) ltac:(lia)). lia.
Qed.
