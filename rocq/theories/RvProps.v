(** C59, and C29 continued: programs of RISC-V units read their inputs and write their outputs through the given functions. *)
From Coq Require Import String Ascii List Bool Arith ZArith Lia.
From Verif Require Import WidthModel WidthProofs RvModel RvProofs.
Import ListNotations.
Local Open Scope Z_scope.

(** * C29: which numbers of inputs and outputs are accepted *)

Theorem C29_accepted : forall mem n, (exists l, riscv_c_addresses mem n = Some l) <-> (0 < mem <= 2 ^ 30 /\ mem mod 4 = 0 /\ (n = 0%nat \/ Z.of_nat n + 2 < justHigherPow2 mem)).
Proof.
  intros mem n. unfold riscv_c_addresses, riscv_mem_ok. destruct (Z.ltb_spec 0 mem) as [P|P]; cbn [andb]; [|split; [intros (l & H); discriminate|lia]].
  destruct (Z.eqb_spec (mem mod 4) 0) as [M|M]; cbn [andb]; [|split; [intros (l & H); discriminate|lia]]. destruct (Z.leb_spec mem (2 ^ 30)) as [B|B]; [|split; [intros (l & H); discriminate|lia]].
  destruct (jhp2_spec mem ltac:(lia)) as (X & _). rewrite Z.shiftl_mul_pow2, Z.mul_1_l by lia. change 4 with (2 ^ 2). pose proof (addrs_total n (justHigherPow2 mem) 2 ltac:(lia) ltac:(lia)) as T.
  split.
  - intros (l & H). split; [lia|]. split; [exact M|]. rewrite H in T. destruct (proj1 T ltac:(discriminate)); [left; assumption|right; lia].
  - intros (_ & _ & H). destruct (riscv_addrs (2 ^ justHigherPow2 mem) (2 ^ 2) n) as [l|]; [exists l; reflexivity|]. exfalso. apply (proj2 T); [|reflexivity]. destruct H; [left; assumption|right; lia].
Qed.
Print Assumptions C29_accepted.
Example C29_accepted_ex : justHigherPow2 512 = 9 /\ (exists l, riscv_c_addresses 512 6 = Some l) /\ riscv_c_addresses 512 7 = None.
Proof. split; [reflexivity|]. split; [eexists|]; reflexivity. Qed.
(** One more would have an address of its own below the bit of peripherals: the check is made after the shift. *)
Theorem C29_last_address_refuted : exists mem n a, riscv_c_addresses mem n = None /\ 0 < mem <= 2 ^ 30 /\ mem mod 4 = 0 /\
  (a = 2 ^ justHigherPow2 mem + 2 ^ (Z.of_nat n + 1) /\ io_select a (external_bit mem) = true /\ 0 <= word_addr a < 2 ^ addrW mem /\
   (forall j, 0 <= j < Z.of_nat n -> io_select a j = (j =? Z.of_nat n - 1)) /\ (exists l, riscv_c_addresses mem (n - 1) = Some l /\ ~ In a l)).
Proof.
  exists 512, 7%nat, 768. split; [reflexivity|]. split; [lia|]. split; [reflexivity|]. split; [reflexivity|]. split; [reflexivity|]. split; [vm_compute; split; congruence|]. split.
  - intros j J. assert (C : j = 0 \/ j = 1 \/ j = 2 \/ j = 3 \/ j = 4 \/ j = 5 \/ j = 6) by lia. destruct C as [ ->|[ ->|[ ->|[ ->|[ ->|[ ->| ->]]]]]]; reflexivity.
  - exists [516; 520; 528; 544; 576; 640]. split; [reflexivity|]. cbn. intuition discriminate.
Qed.
Print Assumptions C29_last_address_refuted.

(** * C59 *)

(** Which units are accepted: only inputs and outputs, one bit for the outputs named after an input or output. *)
Theorem C59_accepted : forall mem l, NoDup (map io_name l) ->
  (exists c, make mem l = Some c) <->
  ((exists a, riscv_c_addresses mem (List.length l) = Some a) /\
   Forall (fun e => io_dir e <> DInout /\ (io_dir e = DOut -> forall x, io_name e = ("on_" ++ x)%string -> In x (map io_name l) -> io_width e = 1)) l).
Proof.
  intros mem l ND. assert (P : (exists p, parts_from l 0 l = Some p) <-> Forall (fun e => io_dir e <> DInout /\ (io_dir e = DOut -> forall x, io_name e = ("on_" ++ x)%string -> In x (map io_name l) -> io_width e = 1)) l).
  { assert (Q : parts_from l 0 l <> None <-> exists p, parts_from l 0 l = Some p) by (destruct (parts_from l 0 l) as [p|]; split; [intros _; exists p; reflexivity|discriminate|congruence|intros (p & H); discriminate]).
    rewrite <- Q, parts_total. split; intro F.
    - rewrite Forall_forall in *. intros e I. specialize (F e I 0%nat). unfold one_part in F. destruct (io_dir e) eqn:D; [split; [discriminate|discriminate]| |congruence]. split; [discriminate|]. intros _ x E J.
      assert (T : trigger_of l (io_name e) = Some x) by (apply trigger_spec; auto). rewrite T in F. destruct (Z.eqb_spec (io_width e) 1); [assumption|congruence].
    - rewrite Forall_forall in *. intros e I k. destruct (F e I) as [N W]. unfold one_part. destruct (io_dir e) eqn:D; [discriminate| |congruence]. destruct (trigger_of l (io_name e)) as [x|] eqn:T; [|discriminate].
      apply trigger_spec in T. destruct T as [E J]. rewrite (W eq_refl x E J). cbn [Z.eqb Pos.eqb]. apply in_map_iff in J. destruct J as (f & <- & J). destruct (F f J) as [NF _]. apply In_nth_error in J. destruct J as [j J].
      rewrite (index_nth l j f ND J), !(declared_dir l j f _ ND J). unfold is_dir. destruct (io_dir f); congruence || discriminate. }
  rewrite <- P. unfold make. split.
  - intros (c & H). destruct (riscv_c_addresses mem (List.length l)) as [a|]; [|discriminate]. destruct (parts_from l 0 l) as [p|]; [|discriminate]. split; eexists; reflexivity.
  - intros [(a & ->) (p & ->)]. eexists. reflexivity.
Qed.

(** Each input and output has one function, with its own address. *)
Theorem C59_functions : forall mem l c, make mem l = Some c -> NoDup (map io_name l) ->
  map fst (c_addrs c) = map io_name l /\ NoDup (map snd (c_addrs c)) /\ (forall n a, In (n, a) (c_addrs c) -> mem <= a /\ 0 <= word_addr a < 2 ^ addrW mem /\ a mod 4 = 0).
Proof.
  intros mem l c MK ND. destruct (made mem l c MK) as (al & A & _ & _ & C & _). pose proof (riscv_map_ok _ _ _ A) as [L M]. rewrite C.
  assert (F : forall (x : list string) (y : list Z), List.length x = List.length y -> map fst (combine x y) = x /\ map snd (combine x y) = y).
  { induction x as [|a x IH]; intros [|b y] E; try discriminate E; [auto|]. cbn. injection E as E. destruct (IH y E) as [-> ->]. auto. }
  destruct (F (map io_name l) al) as [F1 F2]; [rewrite map_length; lia|]. split; [exact F1|]. split.
  - rewrite F2. apply NoDup_nth_error. intros i j I E. destruct (nth_error al i) as [a|] eqn:NI; [|apply nth_error_None in NI; lia]. symmetry in E.
    destruct (M i a NI) as (_ & B1 & _). destruct (M j a E) as (_ & B2 & _). specialize (B1 (Z.of_nat i) ltac:(lia)). specialize (B2 (Z.of_nat i) ltac:(lia)). rewrite B1, Z.eqb_refl in B2. symmetry in B2. apply Z.eqb_eq in B2. lia.
  - intros n a I. apply in_combine_r in I. apply In_nth_error in I. destruct I as [i I]. destruct (M i a I) as (_ & _ & R & _ & Q). split; [exact Q|]. split; [exact R|].
    destruct (riscv_c_addresses_spec _ _ _ A) as [_ S]. destruct (S i a I) as [-> K]. apply Z.mod_divide; [lia|]. apply Z.divide_trans with (2 ^ 2); [exists 1; reflexivity|].
    exists (Z.lor (2 ^ (justHigherPow2 mem - 2)) (2 ^ Z.of_nat i)). rewrite <- !Z.shiftl_mul_pow2 by lia. rewrite Z.shiftl_lor, !Z.shiftl_mul_pow2, <- !Z.pow_add_r by lia. f_equal; f_equal; lia.
Qed.

(** A read at the address of an input, whatever happened before: in the next cycle the processor gets the value the input has then. *)
Theorem C59_input : forall mem l c e a s i b i', make mem l = Some c -> NoDup (map io_name l) -> In e l -> io_dir e = DIn -> In (io_name e, a) (c_addrs c) ->
  b_addr b = word_addr a -> b_wen b = 0 -> 0 <= i' (io_name e) < 2 ^ 32 -> rdata c (step c s i b) i' = i' (io_name e).
Proof.
  intros mem l c e a s i b i' MK ND I D A BA BW V. apply In_nth_error in I. destruct I as [k K]. destruct (addr_bits mem l c MK ND k e a K A) as [X B].
  unfold rdata, io_read. cbn [step s_addr s_rw]. rewrite BA, BW, X. cbn [Z.eqb negb andb]. unfold io_reads. cbn [step s_addr].
  assert (E : fold_left (fun z p => Z.lor z (read_part (step c s i b) i' p)) (c_parts c) 0 = i' (io_name e)); [|rewrite E; apply Z.mod_small; exact V].
  assert (P : nth_error (c_parts c) k = Some (PRead k (io_name e))) by (rewrite (part_at mem l c MK k e K); unfold one_part; rewrite D; reflexivity).
  assert (Z0 : forall j p, nth_error (c_parts c) j = Some p -> read_part (step c s i b) i' p = if Nat.eqb j k then i' (io_name e) else 0).
  { intros j p J. destruct (made mem l c MK) as (al & _ & PF & _). pose proof J as J0. rewrite (parts_nth _ _ _ _ PF j) in J. destruct (nth_error l j) as [f|] eqn:F; [|discriminate]. cbn [Nat.add] in J.
    assert (R : forall m v, p = PRead m v -> m = j /\ v = io_name f).
    { intros m v ->. unfold one_part in J. destruct (io_dir f); [injection J as -> ->; auto| |discriminate]. destruct (trigger_of l (io_name f)); [|discriminate]. destruct (io_width f =? 1); [|discriminate].
      destruct (index_of l s0); [|discriminate]. destruct (declared DIn l s0); [discriminate|]. destruct (declared DOut l s0); discriminate. }
    destruct p as [m v|m v|v m|v m]; cbn [read_part step s_addr].
    - destruct (R m v eq_refl) as [-> ->]. rewrite BA, (B j f F). destruct (Nat.eqb_spec j k) as [ ->|]; [|reflexivity]. congruence.
    - destruct (Nat.eqb_spec j k) as [ ->|]; [congruence|reflexivity].
    - destruct (Nat.eqb_spec j k) as [ ->|]; [congruence|reflexivity].
    - destruct (Nat.eqb_spec j k) as [ ->|]; [congruence|reflexivity]. }
  revert P Z0. generalize (read_part (step c s i b) i') as rp. generalize (c_parts c) as ps. generalize (i' (io_name e)) as v.
  assert (G : forall (v : Z) ps (rp : part -> Z) z, (forall j p, nth_error ps j = Some p -> rp p = 0) -> fold_left (fun z p => Z.lor z (rp p)) ps z = z).
  { intros v ps rp. induction ps as [|p ps IH]; intros z H; [reflexivity|]. cbn [fold_left]. rewrite (H 0%nat p eq_refl), Z.lor_0_r. apply IH. intros j q J. apply (H (S j) q J). }
  intros v ps rp P H. apply nth_error_split in P. destruct P as (p1 & p2 & -> & L). rewrite fold_left_app. cbn [fold_left]. rewrite (G v p1).
  - rewrite (H k (PRead k (io_name e))), Nat.eqb_refl by (rewrite nth_error_app2 by lia; rewrite L, Nat.sub_diag; reflexivity). rewrite Z.lor_0_l. apply (G v). intros j q J.
    rewrite (H (S (k + j)) q); [destruct (Nat.eqb_spec (S (k + j)) k); [lia|reflexivity]|]. rewrite nth_error_app2 by lia. replace (S (k + j) - List.length p1)%nat with (S j) by lia. exact J.
  - intros j q J. assert (j < List.length p1)%nat by (apply nth_error_Some; congruence). rewrite (H j q); [destruct (Nat.eqb_spec j k); [lia|reflexivity]|]. rewrite nth_error_app1 by assumption. exact J.
Qed.

(** The accesses made by programs that use the functions: outside of the memory, the addresses are theirs. *)
Definition proper (c : soc) (b : bus) : Prop := external c (b_addr b) = true -> known c (b_addr b).
Definition writes_at (b : bus) (w : Z) : Prop := b_addr b = w /\ b_wen b <> 0.

Lemma out_step : forall mem l c e a s i b, make mem l = Some c -> NoDup (map io_name l) -> In e l -> io_dir e = DOut -> In (io_name e, a) (c_addrs c) ->
  (forall x, io_name e = ("on_" ++ x)%string -> ~ In x (map io_name l)) -> proper c b ->
  s_out (step c s i b) (io_name e) = if (b_addr b =? word_addr a) && negb (b_wen b =? 0) then b_wdata b mod 2 ^ io_width e else s_out s (io_name e).
Proof.
  intros mem l c e a s i b MK ND I D A T P. apply In_nth_error in I. destruct I as [k K].
  assert (PT : nth_error (c_parts c) k = Some (PWrite k (io_name e))).
  { rewrite (part_at mem l c MK k e K). unfold one_part. rewrite D. destruct (trigger_of l (io_name e)) as [x|] eqn:X; [|reflexivity]. apply trigger_spec in X. destruct X as [X1 X2]. exfalso. exact (T x X1 X2). }
  rewrite (out_own mem l c MK ND s i b k e _ K PT). cbn [do_trigger do_write]. unfold setv. rewrite String.eqb_refl. rewrite (width_own mem l c MK ND k e K). unfold io_write.
  rewrite <- (known_bit mem l c MK ND (b_addr b) k e a P K A). destruct (external c (b_addr b)), (b_wen b =? 0), (io_bit (b_addr b) k); reflexivity.
Qed.
(** An output holds the last value written by its function, on its bits; 0 before. *)
Theorem C59_output : forall mem l c e a s p i b q, make mem l = Some c -> NoDup (map io_name l) -> In e l -> io_dir e = DOut -> In (io_name e, a) (c_addrs c) ->
  (forall x, io_name e = ("on_" ++ x)%string -> ~ In x (map io_name l)) -> writes_at b (word_addr a) -> Forall (fun r => proper c (snd r) /\ ~ writes_at (snd r) (word_addr a)) q ->
  s_out (run c s (p ++ (i, b) :: q)) (io_name e) = b_wdata b mod 2 ^ io_width e.
Proof.
  intros mem l c e a s p i b q MK ND I D A T [W1 W2] F. unfold run. rewrite fold_left_app. cbn [fold_left fst snd]. 
  assert (PB : proper c b). { intros _. exists (io_name e), a. auto. }
  assert (E : s_out (step c (fold_left (fun s p => step c s (fst p) (snd p)) p s) i b) (io_name e) = b_wdata b mod 2 ^ io_width e).
  { rewrite (out_step mem l c e a _ i b MK ND I D A T PB). rewrite W1, Z.eqb_refl. destruct (Z.eqb_spec (b_wen b) 0); [contradiction|reflexivity]. }
  revert E. generalize (step c (fold_left (fun s p => step c s (fst p) (snd p)) p s) i b) as s0. induction F as [|[i1 b1] q [P N] F IH]; intros s0 E; [exact E|]. cbn [fold_left fst snd] in *. apply IH.
  rewrite (out_step mem l c e a _ i1 b1 MK ND I D A T P). destruct (Z.eqb_spec (b_addr b1) (word_addr a)) as [X|X]; cbn [andb]; [|exact E]. destruct (Z.eqb_spec (b_wen b1) 0) as [Y|Y]; [exact E|]. exfalso. apply N. split; assumption.
Qed.
Theorem C59_output_first : forall mem l c e a m r q, make mem l = Some c -> NoDup (map io_name l) -> In e l -> io_dir e = DOut -> In (io_name e, a) (c_addrs c) ->
  (forall x, io_name e = ("on_" ++ x)%string -> ~ In x (map io_name l)) -> Forall (fun r => proper c (snd r) /\ ~ writes_at (snd r) (word_addr a)) q ->
  s_out (run c (init m r) q) (io_name e) = 0.
Proof.
  intros mem l c e a m r q MK ND I D A T F. unfold run. assert (E : s_out (init m r) (io_name e) = 0) by reflexivity. revert E. generalize (init m r) as s0.
  induction F as [|[i1 b1] q [P N] F IH]; intros s0 E; [exact E|]. cbn [fold_left fst snd] in *. apply IH.
  rewrite (out_step mem l c e a _ i1 b1 MK ND I D A T P). destruct (Z.eqb_spec (b_addr b1) (word_addr a)) as [X|X]; cbn [andb]; [|exact E]. destruct (Z.eqb_spec (b_wen b1) 0) as [Y|Y]; [exact E|]. exfalso. apply N. split; assumption.
Qed.

(** on_x for an output x: 1 exactly in the cycles where a write to x takes effect. *)
Theorem C59_on_write : forall mem l c e x a s i b, make mem l = Some c -> NoDup (map io_name l) -> In e l -> io_dir e = DOut -> In x l -> io_dir x = DOut -> io_name e = ("on_" ++ io_name x)%string ->
  In (io_name x, a) (c_addrs c) -> proper c b ->
  (s_out (step c s i b) (io_name e) = 1 <-> writes_at b (word_addr a)) /\ (s_out (step c s i b) (io_name e) = 0 <-> ~ writes_at b (word_addr a)).
Proof.
  intros mem l c e x a s i b MK ND I D J DX N A P. apply In_nth_error in I. destruct I as [k K]. pose proof J as J0. apply In_nth_error in J. destruct J as [j J].
  assert (X : trigger_of l (io_name e) = Some (io_name x)) by (apply trigger_spec; split; [exact N|apply in_map; exact J0]).
  assert (PT : nth_error (c_parts c) k = Some (POnWrite (io_name e) j)).
  { assert (W : io_width e = 1). { apply nth_error_In in K. pose proof (proj1 (C59_accepted mem l ND) (ex_intro _ c MK)) as [_ F]. rewrite Forall_forall in F. apply (proj2 (F e K) D (io_name x) N). apply in_map; exact J0. }
    rewrite (part_at mem l c MK k e K). unfold one_part. rewrite D, X, W. cbn [Z.eqb Pos.eqb]. rewrite (index_nth l j x ND J), !(declared_dir l j x _ ND J). unfold is_dir. rewrite DX. reflexivity. }
  rewrite (out_own mem l c MK ND s i b k e _ K PT). cbn [do_trigger do_write]. unfold setv. rewrite String.eqb_refl.
  assert (E : (if io_write c b then Z.b2z (io_write c b && io_bit (b_addr b) j) else Z.b2z (io_write c b && io_bit (b_addr b) j)) = Z.b2z ((b_addr b =? word_addr a) && negb (b_wen b =? 0))).
  { rewrite <- (known_bit mem l c MK ND (b_addr b) j x a P J A). unfold io_write. destruct (external c (b_addr b)), (b_wen b =? 0), (io_bit (b_addr b) j); reflexivity. }
  rewrite E. unfold writes_at. destruct (Z.eqb_spec (b_addr b) (word_addr a)), (Z.eqb_spec (b_wen b) 0); cbn; split; split; intros; try tauto; try lia; try discriminate.
Qed.
(** on_x for an input x: 1 exactly in the cycle after the one in which x is given to the processor, that is two cycles after the address. *)
Theorem C59_on_read : forall mem l c e x a s i0 b0 i b, make mem l = Some c -> NoDup (map io_name l) -> In e l -> io_dir e = DOut -> In x l -> io_dir x = DIn -> io_name e = ("on_" ++ io_name x)%string ->
  In (io_name x, a) (c_addrs c) -> proper c b0 ->
  (s_out (step c (step c s i0 b0) i b) (io_name e) = 1 <-> b_addr b0 = word_addr a /\ b_wen b0 = 0) /\
  (s_out (step c (step c s i0 b0) i b) (io_name e) = 0 <-> ~ (b_addr b0 = word_addr a /\ b_wen b0 = 0)).
Proof.
  intros mem l c e x a s i0 b0 i b MK ND I D J DX N A P. apply In_nth_error in I. destruct I as [k K]. pose proof J as J0. apply In_nth_error in J. destruct J as [j J].
  assert (X : trigger_of l (io_name e) = Some (io_name x)) by (apply trigger_spec; split; [exact N|apply in_map; exact J0]).
  assert (PT : nth_error (c_parts c) k = Some (POnRead (io_name e) j)).
  { assert (W : io_width e = 1). { apply nth_error_In in K. pose proof (proj1 (C59_accepted mem l ND) (ex_intro _ c MK)) as [_ F]. rewrite Forall_forall in F. apply (proj2 (F e K) D (io_name x) N). apply in_map; exact J0. }
    rewrite (part_at mem l c MK k e K). unfold one_part. rewrite D, X, W. cbn [Z.eqb Pos.eqb]. rewrite (index_nth l j x ND J), !(declared_dir l j x _ ND J). unfold is_dir. rewrite DX. reflexivity. }
  rewrite (out_own mem l c MK ND _ i b k e _ K PT). cbn [do_trigger do_write]. unfold setv. rewrite String.eqb_refl.
  set (s1 := step c s i0 b0). assert (E : (if io_write c b then Z.b2z (io_read c s1 && io_bit (s_addr s1) j) else Z.b2z (io_read c s1 && io_bit (s_addr s1) j)) = Z.b2z ((b_addr b0 =? word_addr a) && (b_wen b0 =? 0))).
  { subst s1. rewrite <- (known_bit mem l c MK ND (b_addr b0) j x a P J A). unfold io_read. cbn [step s_addr s_rw]. rewrite negb_involutive. destruct (io_write c b), (external c (b_addr b0)), (b_wen b0 =? 0), (io_bit (b_addr b0) j); reflexivity. }
  rewrite E. destruct (Z.eqb_spec (b_addr b0) (word_addr a)), (Z.eqb_spec (b_wen b0) 0); cbn; split; split; intros; try tauto; try lia; try discriminate.
Qed.

(** The memory: bytes below the size of the memory hold what was last written to them, and accesses to inputs and outputs do not change them. *)
Definition writes_byte (b : bus) (w k : Z) : Prop := b_addr b = w /\ Z.testbit (b_wen b) k = true.
(** Addresses have the width of the port of the processor. *)
Definition sized (mem : Z) (b : bus) : Prop := 0 <= b_addr b < 2 ^ addrW mem.
Lemma sizes : forall mem l c, make mem l = Some c -> c_mem c = mem /\ 0 < mem / 4 /\ external_bit mem = mem_addr_width (mem / 4) /\ addrW mem = 1 + external_bit mem /\ 0 <= external_bit mem /\ mem / 4 <= 2 ^ external_bit mem.
Proof.
  intros mem l c MK. destruct (made mem l c MK) as (al & A & _ & CM & _). split; [exact CM|].
  assert (OK : 0 < mem /\ mem mod 4 = 0). { unfold riscv_c_addresses, riscv_mem_ok in A. destruct (Z.ltb_spec 0 mem), (Z.eqb_spec (mem mod 4) 0), (mem <=? 2 ^ 30); cbn in A; discriminate || auto. }
  assert (M : mem = 4 * (mem / 4)) by (apply Z_div_exact_2; lia). assert (J : justHigherPow2 mem = justHigherPow2 (mem / 4) + 2) by (rewrite M at 1; apply jhp2_times4; lia).
  destruct (jhp2_spec (mem / 4) ltac:(lia)) as (X & Y & _). unfold external_bit, mem_addr_width, addrW. rewrite J. split; [lia|]. split; [lia|]. split; [lia|]. split; [lia|].
  replace (justHigherPow2 (mem / 4) + 2 - 2) with (justHigherPow2 (mem / 4)) by lia. lia.
Qed.
Lemma below : forall e w, 0 <= e -> 0 <= w < 2 ^ (1 + e) -> (Z.testbit w e = false <-> w < 2 ^ e).
Proof.
  intros e w E W. rewrite Z.pow_add_r in W by lia. split; intro H.
  - destruct (Z.lt_ge_cases w (2 ^ e)) as [L|G]; [exact L|]. exfalso. rewrite Z.testbit_false in H by lia. assert (w / 2 ^ e = 1); [|rewrite H0 in H; discriminate].
    symmetry. apply Z.div_unique with (w - 2 ^ e); [left|]; lia.
  - destruct (Z.eq_dec w 0) as [ ->|]; [apply Z.testbit_0_l|]. apply Z.bits_above_log2; [lia|]. apply Z.log2_lt_pow2; lia.
Qed.
Lemma memory_external : forall mem l c w, make mem l = Some c -> 0 <= w < mem / 4 -> external c w = false /\ mem_addr c w = w.
Proof.
  intros mem l c w MK W. destruct (sizes mem l c MK) as (CM & P & E1 & E2 & E3 & E4). unfold external, mem_addr. rewrite CM, <- E1. split; [|apply Z.mod_small; lia].
  apply below; [exact E3| |lia]. rewrite Z.pow_add_r by lia. lia.
Qed.
Lemma memory_step : forall mem l c s i b w k, make mem l = Some c -> sized mem b -> 0 <= w < mem / 4 ->
  s_mem (step c s i b) w k = if (b_addr b =? w) && Z.testbit (b_wen b) k then b_wdata b / 256 ^ k mod 256 else s_mem s w k.
Proof.
  intros mem l c s i b w k MK S W. destruct (sizes mem l c MK) as (CM & P & E1 & E2 & E3 & E4). unfold sized in S. rewrite E2 in S. pose proof (below _ _ E3 S) as B.
  cbn [step s_mem]. unfold external, mem_addr. rewrite CM, <- E1. destruct (Z.testbit (b_addr b) (external_bit mem)) eqn:X; cbn [negb andb].
  - destruct (Z.eqb_spec (b_addr b) w) as [Y|Y]; [|reflexivity]. exfalso. assert (b_addr b < 2 ^ external_bit mem) by lia. apply B in H. discriminate.
  - rewrite Z.mod_small by (split; [lia|apply B; reflexivity]). rewrite (Z.eqb_sym w). reflexivity.
Qed.
Theorem C59_memory : forall mem l c w k s p i b q, make mem l = Some c -> 0 <= w < mem / 4 -> 0 <= k < 4 -> writes_byte b w k -> Forall (fun r => sized mem (snd r) /\ ~ writes_byte (snd r) w k) q ->
  s_mem (run c s (p ++ (i, b) :: q)) w k = b_wdata b / 256 ^ k mod 256.
Proof.
  intros mem l c w k s p i b q MK W K [B1 B2] F. unfold run. rewrite fold_left_app. cbn [fold_left fst snd]. destruct (sizes mem l c MK) as (CM & P & E1 & E2 & E3 & E4).
  assert (S : sized mem b). { unfold sized. rewrite B1, E2, Z.pow_add_r by lia. lia. }
  assert (E : s_mem (step c (fold_left (fun s p => step c s (fst p) (snd p)) p s) i b) w k = b_wdata b / 256 ^ k mod 256). { rewrite (memory_step mem l c _ i b w k MK S W), B1, Z.eqb_refl, B2. reflexivity. }
  revert E. generalize (step c (fold_left (fun s p => step c s (fst p) (snd p)) p s) i b) as s0. induction F as [|[i1 b1] q [S1 N] F IH]; intros s0 E; [exact E|]. cbn [fold_left fst snd] in *. apply IH.
  rewrite (memory_step mem l c _ i1 b1 w k MK S1 W). destruct (Z.eqb_spec (b_addr b1) w) as [Y|Y]; cbn [andb]; [|exact E]. destruct (Z.testbit (b_wen b1) k) eqn:T; [|exact E]. exfalso. apply N. split; auto.
Qed.
Theorem C59_memory_kept : forall mem l c w k s q, make mem l = Some c -> 0 <= w < mem / 4 -> Forall (fun r => sized mem (snd r) /\ ~ writes_byte (snd r) w k) q -> s_mem (run c s q) w k = s_mem s w k.
Proof.
  intros mem l c w k s q MK W F. unfold run. revert s. induction F as [|[i1 b1] q [S1 N] F IH]; intros s0; [reflexivity|]. cbn [fold_left fst snd] in *. rewrite IH.
  rewrite (memory_step mem l c _ i1 b1 w k MK S1 W). destruct (Z.eqb_spec (b_addr b1) w) as [Y|Y]; cbn [andb]; [|reflexivity]. destruct (Z.testbit (b_wen b1) k) eqn:T; [|reflexivity]. exfalso. apply N. split; auto.
Qed.
(** A word read in the memory is made of its four bytes, before the write of the same cycle if any. *)
Theorem C59_memory_read : forall mem l c s i b i', make mem l = Some c -> 0 <= b_addr b < mem / 4 ->
  rdata c (step c s i b) i' = s_mem s (b_addr b) 0 + 2 ^ 8 * s_mem s (b_addr b) 1 + 2 ^ 16 * s_mem s (b_addr b) 2 + 2 ^ 24 * s_mem s (b_addr b) 3.
Proof.
  intros mem l c s i b i' MK W. unfold rdata, io_read. cbn [step s_addr s_rw s_read]. destruct (memory_external mem l c _ MK W) as [-> ->]. cbn [andb]. unfold word. lia.
Qed.
(** Without the mask, a write to an output would also be a write to the memory: the addresses of the functions differ by one bit from addresses of the memory. *)
Example C59_alias : exists c, make 512 [ {| io_dir := DOut; io_name := "b"; io_signed := false; io_width := 8 |} ] = Some c /\ mem_addr c (word_addr 516) = 1 /\
  s_mem (step c (init (fun _ _ => 0) 0) (fun _ => 0) {| b_addr := word_addr 516; b_wen := 15; b_wdata := 7 |}) 1 0 = 0.
Proof. eexists. split; [vm_compute; reflexivity|]. split; reflexivity. Qed.

Print Assumptions C59_accepted.
Print Assumptions C59_functions.
Print Assumptions C59_input.
Print Assumptions C59_output.
Print Assumptions C59_output_first.
Print Assumptions C59_on_write.
Print Assumptions C59_on_read.
Print Assumptions C59_memory.
Print Assumptions C59_memory_kept.
Print Assumptions C59_memory_read.

(** * Example: input uint8 a, output uint16 b, output uint1 on_a, output uint1 on_b; 512 bytes. *)
Definition ex_ios : list io :=
  [ {| io_dir := DIn; io_name := "a"; io_signed := false; io_width := 8 |}; {| io_dir := DOut; io_name := "b"; io_signed := false; io_width := 16 |};
    {| io_dir := DOut; io_name := "on_a"; io_signed := false; io_width := 1 |}; {| io_dir := DOut; io_name := "on_b"; io_signed := false; io_width := 1 |} ].
Example C59_ex : exists c, make 512 ex_ios = Some c /\ NoDup (map io_name ex_ios) /\
  c_addrs c = [("a"%string, 516); ("b"%string, 520); ("on_a"%string, 528); ("on_b"%string, 544)] /\
  c_parts c = [PRead 0 "a"; PWrite 1 "b"; POnRead "on_a" 0; POnWrite "on_b" 1] /\
  (** b(0x12345); a(); then nothing: b, on_a, on_b and the answer of each cycle. *)
  (let inp := fun _ : string => 77 in
   let s1 := step c (init (fun _ _ => 0) 0) inp {| b_addr := word_addr 520; b_wen := 15; b_wdata := 74565 |} in
   let s2 := step c s1 inp {| b_addr := word_addr 516; b_wen := 0; b_wdata := 0 |} in
   let s3 := step c s2 inp {| b_addr := 5; b_wen := 0; b_wdata := 0 |} in
   map (fun s => (s_out s "b", s_out s "on_a", s_out s "on_b", rdata c s inp)) [s1; s2; s3] = [(9029, 0, 1, 0); (9029, 0, 0, 77); (9029, 1, 0, 0)]).
Proof.
  eexists. split; [vm_compute; reflexivity|]. split; [|split; [reflexivity|split; [reflexivity|vm_compute; reflexivity]]].
  cbn [map ex_ios io_name]. repeat (constructor; [cbn; intuition discriminate|]). constructor.
Qed.

(** * Where the property fails *)

(** A signed input is read as an unsigned number: the port is always unsigned. The C function returns an int, and the input -1 on 8 bits is read 255. *)
Definition as_int (n : Z) (w : Z) : Z := if Z.testbit n (w - 1) then n mod 2 ^ w - 2 ^ w else n mod 2 ^ w.
Theorem C59_signed_refuted : exists e c a i, make 512 [e] = Some c /\ io_dir e = DIn /\ io_signed e = true /\ c_addrs c = [(io_name e, a)] /\ 0 <= i (io_name e) < 2 ^ io_width e /\
  as_int (i (io_name e)) (io_width e) = -1 /\
  forall s, as_int (rdata c (step c s i {| b_addr := word_addr a; b_wen := 0; b_wdata := 0 |}) i) 32 = 255.
Proof.
  exists {| io_dir := DIn; io_name := "a"; io_signed := true; io_width := 8 |}. eexists. exists 516, (fun _ => 255). split; [vm_compute; reflexivity|]. split; [reflexivity|]. split; [reflexivity|]. split; [reflexivity|]. split; [cbn; lia|]. split; [reflexivity|].
  intro s. reflexivity.
Qed.
(** The type of the port is not the one given, for all signed inputs and outputs. *)
Theorem C59_sign_lost_refuted : forall mem l c, make mem l = Some c -> Forall (fun p => p_signed p = false) (c_ports c).
Proof. intros mem l c MK. destruct (made mem l c MK) as (_ & _ & _ & _ & _ & ->). apply Forall_map. apply Forall_forall. intros e _. reflexivity. Qed.
(** Inputs and outputs of more than 32 bits are accepted; only 32 bits are exchanged. *)
Theorem C59_wide_refuted : exists e f c a b i, make 512 [e; f] = Some c /\ io_dir e = DIn /\ io_width e = 40 /\ io_dir f = DOut /\ io_width f = 40 /\ c_addrs c = [(io_name e, a); (io_name f, b)] /\
  0 <= i (io_name e) < 2 ^ 40 /\
  (forall s, rdata c (step c s i {| b_addr := word_addr a; b_wen := 0; b_wdata := 0 |}) i <> i (io_name e)) /\
  (forall s d, 0 <= d < 2 ^ 32 -> s_out (step c s i {| b_addr := word_addr b; b_wen := 15; b_wdata := d |}) (io_name f) < 2 ^ 32).
Proof.
  exists {| io_dir := DIn; io_name := "a"; io_signed := false; io_width := 40 |}, {| io_dir := DOut; io_name := "b"; io_signed := false; io_width := 40 |}. eexists. exists 516, 520, (fun _ => 2 ^ 32 + 7).
  split; [vm_compute; reflexivity|]. do 5 (split; [reflexivity|]). split; [cbn; lia|]. split; [intro s; vm_compute; discriminate|].
  intros s d D. cbn. change (Z.pow_pos 2 40) with (2 ^ 40). rewrite Z.mod_small by lia. lia.
Qed.
(** The function on_x(v) given for a trigger has no effect. *)
Theorem C59_trigger_function_refuted : exists c e a, make 512 ex_ios = Some c /\ In e ex_ios /\ has_setter e = true /\ In (io_name e, a) (c_addrs c) /\
  forall s i, s_out (step c s i {| b_addr := word_addr a; b_wen := 15; b_wdata := 1 |}) (io_name e) = 0.
Proof.
  eexists. exists {| io_dir := DOut; io_name := "on_b"; io_signed := false; io_width := 1 |}, 544. split; [vm_compute; reflexivity|]. split; [cbn; tauto|]. split; [reflexivity|]. split; [cbn; tauto|].
  intros s i. reflexivity.
Qed.

Print Assumptions C59_signed_refuted.
Print Assumptions C59_sign_lost_refuted.
Print Assumptions C59_wide_refuted.
Print Assumptions C59_trigger_function_refuted.
