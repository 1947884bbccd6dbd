(** Properties C24, C25. *)
From Coq Require Import ZArith List Bool Lia.
From Verif Require Import BindingModel BindingProofs.
Import ListNotations.
Local Open Scope Z_scope.

(** *** C24: bit-range bindings *)

(** The expression read for a variable bound range by range has the bits the
    user bound, zero elsewhere; [rho] gives the value of each output wire. *)
Theorem C24_bits_connected : forall ibw bs l rho,
  rewriteBinding ibw bs = Some l ->
  length l = ibw /\
  forall i, (i < ibw)%nat ->
    (forall r, In r bs -> bb_first r <= Z.of_nat i < bb_first r + bb_width r ->
       Z.testbit (celems_val rho l) (Z.of_nat i) = Z.testbit (rho (bb_wire r)) (Z.of_nat i - bb_first r)) /\
    ((forall r, In r bs -> ~ (bb_first r <= Z.of_nat i < bb_first r + bb_width r)) ->
       Z.testbit (celems_val rho l) (Z.of_nat i) = false).
Proof. exact rewriteBinding_ok. Qed.
Print Assumptions C24_bits_connected.

(** It is an error exactly when two bindings claim a same bit. *)
Theorem C24_multiple_rejected : forall ibw bs,
  rewriteBinding ibw bs = None <->
  exists i l1 r l2 r' l3, (i < ibw)%nat /\ bs = l1 ++ r :: l2 ++ r' :: l3 /\
    bb_first r <= Z.of_nat i < bb_first r + bb_width r /\
    bb_first r' <= Z.of_nat i < bb_first r' + bb_width r'.
Proof. exact rewriteBinding_rejects. Qed.
Print Assumptions C24_multiple_rejected.

Example C24_ex : rewriteBinding 6 [mkBB 1 3 2; mkBB 2 0 2] =
   Some [CZero; CBit 1 1; CBit 1 0; CZero; CBit 2 1; CBit 2 0]
  /\ rewriteBinding 6 [mkBB 1 1 2; mkBB 2 0 2] = None.
Proof. split; reflexivity. Qed.

(** All range bindings of a variable are recorded, in order; binding the whole
    variable after another binding is rejected. *)
Theorem C24_all_recorded : forall l : list (nat * option (Z * Z)),
  (forall w, ~ In (w, None) l) -> l <> [] ->
  record_outputs BNone l = Some (BParts (map (fun p => match snd p with Some (f, n) => mkBB (fst p) f n | None => mkBB (fst p) 0 0 end) l)).
Proof. exact record_parts. Qed.
Print Assumptions C24_all_recorded.

Theorem C24_whole_after_rejected : forall l w st st',
  record_outputs st l = Some st' -> st <> BNone -> forall l', record_outputs st (l ++ (w, None) :: l') = None.
Proof. exact record_whole_after. Qed.
Print Assumptions C24_whole_after_rejected.

Example C24_recorded_ex : record_outputs BNone [(1%nat, Some (0, 2)); (2%nat, Some (2, 2))]
  = Some (BParts [mkBB 1 0 2; mkBB 2 2 2])
  /\ record_outputs (BParts [mkBB 1 0 2]) [(2%nat, Some (2, 2)); (3%nat, None)] = None.
Proof. split; reflexivity. Qed.

(** In the other order the conflict is not rejected: a range bound after the
    whole variable is accepted and leaves an ill-formed entry. *)
Theorem C24_range_after_whole_refuted : exists l,
  record_outputs BNone l = Some BGarbled /\ In (1%nat, None) l /\ In (2%nat, Some (0, 4)) l.
Proof. exists [(1%nat, None); (2%nat, Some (0, 4))]. cbn. intuition. Qed.
Print Assumptions C24_range_after_whole_refuted.

(** *** C25: overlapping ranges on an inout *)

(** Disjoint ranges are accepted (bindings sharing a range are one map entry). *)
Theorem C25_disjoint_accepted : forall bs,
  (forall b, In b bs -> 0 <= io_first b /\ 0 < io_width b) ->
  (forall a b, In a bs -> In b bs -> io_left a = false -> io_left b = false ->
     io_range a <> io_range b ->
     io_first a + io_width a <= io_first b \/ io_first b + io_width b <= io_first a) ->
  inout_ranges_ok bs = true.
Proof. exact inout_disjoint_accepted. Qed.
Print Assumptions C25_disjoint_accepted.

Example C25_ex : inout_ranges_ok [mkIO 4 4 1 false; mkIO 0 4 2 false; mkIO 2 4 3 true] = true.
Proof. reflexivity. Qed.

(** Binding the whole inout besides a range of it is rejected. The ranges
    rejected by the code are otherwise only those starting at the total width
    minus one of the previous ones: see the refutations of the full claim. *)
Theorem C25_whole_and_part_rejected_partial : forall bs a b,
  In a bs -> In b bs -> io_range a = (-1, -1) -> io_left a = false ->
  (forall c, In c bs -> io_range c = (-1, -1) -> io_left c = false) ->
  (forall c, In c bs -> io_range c = (-1, -1) \/ 0 <= io_first c) ->
  io_range b <> (-1, -1) ->
  inout_ranges_ok bs = false.
Proof. exact inout_whole_rejected. Qed.
Print Assumptions C25_whole_and_part_rejected_partial.

Example C25_whole_ex : inout_ranges_ok [mkIO 4 4 1 false; mkIO (-1) (-1) 2 false] = false.
Proof. reflexivity. Qed.

(** Overlapping ranges may be accepted. *)
Theorem C25_overlap_rejected_refuted : exists bs a b bit,
  inout_ranges_ok bs = true /\ In a bs /\ In b bs /\ a <> b /\ io_left a = false /\ io_left b = false /\
  io_first a <= bit < io_first a + io_width a /\ io_first b <= bit < io_first b + io_width b.
Proof.
  exists [mkIO 0 4 1 false; mkIO 2 4 2 false], (mkIO 0 4 1 false), (mkIO 2 4 2 false), 2.
  cbn. repeat split; try lia; auto. congruence.
Qed.
Print Assumptions C25_overlap_rejected_refuted.

(** Two instances bound to the same range: the second one is dropped. *)
Theorem C25_same_range_refuted : exists bs a b,
  inout_ranges_ok bs = true /\ In a bs /\ In b bs /\ io_point a <> io_point b /\
  io_left a = false /\ io_left b = false /\ io_range a = io_range b /\ ~ In b (bound_map bs).
Proof.
  exists [mkIO 0 4 1 false; mkIO 0 4 2 false], (mkIO 0 4 1 false), (mkIO 0 4 2 false).
  cbn. repeat split; auto; try congruence. intuition congruence.
Qed.
Print Assumptions C25_same_range_refuted.
