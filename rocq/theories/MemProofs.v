(** Bits of the buffer of a memory, and executions of a program next to a memory. *)
From Coq Require Import String List Bool Arith ZArith Lia.
Import ListNotations.
From Verif Require Import FsmModel FsmEmit FsmLayout FsmRegion FsmStates FsmArms FsmSource FsmCorrect FsmRun FsmBig FsmStep RegModel RegProps WidthModel MemModel.
Local Open Scope Z_scope.

(** * Bits *)
Lemma set_part_bit old lo g v j : 0 <= g -> 0 <= lo -> 0 <= j ->
  Z.testbit (set_part old lo g v) j = if (lo <=? j) && (j <? lo + g) then Z.testbit v j else Z.testbit old j.
Proof.
  intros G L J. unfold set_part. rewrite Z.lor_spec, Z.ldiff_spec, !Z.shiftl_spec by lia.
  destruct (Z.leb_spec lo j) as [A|A]; cbn [andb].
  - rewrite Z.land_spec, Z.testbit_ones, Z.shiftr_spec by lia. rewrite Z.sub_add. destruct (Z.leb_spec 0 (j - lo)); [|lia]. cbn [andb].
    destruct (Z.ltb_spec (j - lo) g), (Z.ltb_spec j (lo + g)); try lia; cbn [negb]; rewrite ?andb_true_r, ?andb_false_r, ?orb_false_r, ?orb_false_l; reflexivity.
  - rewrite (Z.testbit_neg_r (Z.ones g)), (Z.testbit_neg_r (Z.land _ _)) by lia. cbn [negb]. now rewrite andb_true_r, orb_false_r.
Qed.
Lemma mask_bit g w we wd old j : 0 < g -> 0 <= j -> forall n,
  Z.testbit (mask_loop g w we wd n old) j = if (j / g <? Z.of_nat n) && vbit (w / g) we (j / g) then Z.testbit wd j else Z.testbit old j.
Proof.
  intros G J. assert (Q : 0 <= j / g) by (apply Z.div_pos; lia). induction n as [|n IH].
  - cbn [mask_loop]. change (Z.of_nat 0) with 0. destruct (Z.ltb_spec (j / g) 0); [lia|reflexivity].
  - cbn [mask_loop]. set (o := mask_loop g w we wd n old) in *. pose proof (Z.div_mod j g ltac:(lia)) as DM. pose proof (Z.mod_pos_bound j g G) as MB.
    assert (IN : (Z.of_nat n * g <=? j) && (j <? Z.of_nat n * g + g) = (j / g =? Z.of_nat n)).
    { destruct (Z.eqb_spec (j / g) (Z.of_nat n)) as [E|E].
      - rewrite <- E. apply andb_true_iff. split; [apply Z.leb_le|apply Z.ltb_lt]; lia.
      - apply andb_false_iff. destruct (Z.lt_trichotomy (j / g) (Z.of_nat n)) as [X|[X|X]]; [left; apply Z.leb_gt; nia|lia|right; apply Z.ltb_ge; nia]. }
    rewrite Nat2Z.inj_succ. destruct (vbit (w / g) we (Z.of_nat n)) eqn:V.
    + rewrite set_part_bit by lia. rewrite IN. destruct (Z.eqb_spec (j / g) (Z.of_nat n)) as [E|E].
      * rewrite E, V. destruct (Z.ltb_spec (Z.of_nat n) (Z.succ (Z.of_nat n))); [reflexivity|lia].
      * rewrite IH. destruct (Z.ltb_spec (j / g) (Z.of_nat n)), (Z.ltb_spec (j / g) (Z.succ (Z.of_nat n))); try lia; reflexivity.
    + rewrite IH. destruct (Z.eqb_spec (j / g) (Z.of_nat n)) as [E|E].
      * rewrite E, V, !andb_false_r. reflexivity.
      * destruct (Z.ltb_spec (j / g) (Z.of_nat n)), (Z.ltb_spec (j / g) (Z.succ (Z.of_nat n))); try lia; reflexivity.
Qed.

(** * Which bits a port writes *)
Definition covers (d : dims) (w : wport) (ww : Z) (i : pin) (j : Z) : bool :=
  match w with
  | NoWrite => false
  | Word => truth (vec ww (p_we i))
  | Mask g => (j / g <? d_dw d / g) && vbit (ww / g) (p_we i) (j / g)
  end.
Definition hit (d : dims) (t : tmpl) (c : cyc) (p : bool) (a : nat) (j : Z) : bool :=
  p_edge (ppin c p) && (address d (ppin c p) =? a)%nat && covers d (portw t p) (wew d p) (ppin c p) j.
Definition good (d : dims) (t : tmpl) : Prop := 0 < d_dw d /\ forall p g, portw t p = Mask g -> 0 < g.
Lemma vec_bit w v j : 0 < w -> 0 <= j < w -> Z.testbit (vec w v) j = Z.testbit v j.
Proof. intros W J. unfold vec, vwidth. destruct (Z.eqb_spec w 0); [lia|]. apply Z.mod_pow2_bits_low. lia. Qed.
Lemma entry_bit d t p i old j : good d t -> 0 <= j < d_dw d ->
  Z.testbit (write_entry d (portw t p) (wew d p) i old) j = if covers d (portw t p) (wew d p) i j then Z.testbit (p_wd i) j else Z.testbit old j.
Proof.
  intros [W G] J. unfold write_entry, covers. destruct (portw t p) as [| |g] eqn:P; [reflexivity| |].
  - destruct (truth _); [now apply vec_bit|reflexivity].
  - specialize (G p g P). rewrite mask_bit by lia. rewrite Z2Nat.id by (apply Z.div_pos; lia). destruct (_ && _); [now apply vec_bit|reflexivity].
Qed.
Lemma write_bit d t c p b a j : good d t -> (a < d_size d)%nat -> 0 <= j < d_dw d ->
  Z.testbit (do_write d t c p b a) j = if hit d t c p a j then Z.testbit (p_wd (ppin c p)) j else Z.testbit (b a) j.
Proof.
  intros G A J. unfold do_write, hit. destruct (p_edge (ppin c p)); [|reflexivity]. cbn [andb].
  destruct (Nat.eqb_spec (address d (ppin c p)) a) as [E|E].
  - subst a. destruct (Nat.ltb_spec (address d (ppin c p)) (d_size d)); [|lia]. rewrite Nat.eqb_refl. cbn [andb]. now apply entry_bit.
  - cbn [andb]. destruct (_ <? _)%nat; [|reflexivity]. destruct (Nat.eqb_spec a (address d (ppin c p))); [congruence|reflexivity].
Qed.
Lemma buf_bit d t c b a j : good d t -> (a < d_size d)%nat -> 0 <= j < d_dw d ->
  Z.testbit (new_buf d t c b a) j = if hit d t c (c_last c) a j then Z.testbit (p_wd (ppin c (c_last c))) j
    else if hit d t c (negb (c_last c)) a j then Z.testbit (p_wd (ppin c (negb (c_last c)))) j else Z.testbit (b a) j.
Proof. intros G A J. unfold new_buf. now rewrite !write_bit. Qed.

(** [k], [p]: the cycle before [n] and the port that wrote bit [j] of entry [a] last. *)
Definition newest (d : dims) (t : tmpl) (h : nat -> cyc) (n : nat) (a : nat) (j : Z) (k : nat) (p : bool) : Prop :=
  (k < n)%nat /\ hit d t (h k) p a j = true /\ (hit d t (h k) (negb p) a j = true -> c_last (h k) = p) /\
  forall k', (k < k' < n)%nat -> forall p', hit d t (h k') p' a j = false.
Definition unwritten (d : dims) (t : tmpl) (h : nat -> cyc) (n : nat) (a : nat) (j : Z) : Prop := forall k p, (k < n)%nat -> hit d t (h k) p a j = false.

Lemma content d t h s0 a j : good d t -> (a < d_size d)%nat -> 0 <= j < d_dw d -> forall n,
  (unwritten d t h n a j -> Z.testbit (m_buf (mem_at d t h n s0) a) j = Z.testbit (m_buf s0 a) j) /\
  (forall k p, newest d t h n a j k p -> Z.testbit (m_buf (mem_at d t h n s0) a) j = Z.testbit (p_wd (ppin (h k) p)) j).
Proof.
  intros G A J. induction n as [|n [I1 I2]].
  - split; [reflexivity|]. intros k p [K _]. lia.
  - cbn [mem_at mem_step m_buf]. rewrite buf_bit by assumption. split.
    + intros U. rewrite !U by lia. apply I1. intros k p K. apply U. lia.
    + intros k p [K [H [L N]]]. destruct (Nat.eq_dec k n) as [ ->|NE].
      * destruct (hit d t (h n) (c_last (h n)) a j) eqn:E.
        -- destruct (Bool.bool_dec p (c_last (h n))) as [ ->|NP]; [reflexivity|]. exfalso. apply NP. symmetry. apply L.
           replace (negb p) with (c_last (h n)); [exact E|]. destruct p, (c_last (h n)); cbn; congruence.
        -- destruct (Bool.bool_dec p (c_last (h n))) as [ ->|NP]; [congruence|]. assert (P : p = negb (c_last (h n))) by (destruct p, (c_last (h n)); cbn; congruence).
           rewrite <- P, H. reflexivity.
      * rewrite !(N n) by lia. apply I2. split; [lia|]. split; [exact H|]. split; [exact L|]. intros k' K' p'. apply N. lia.
Qed.
(** Either nothing was written or something was written last. *)
Lemma newest_or d t h a j : forall n, unwritten d t h n a j \/ exists k p, newest d t h n a j k p.
Proof.
  induction n as [|n IH]; [left; intros k p K; lia|].
  destruct (hit d t (h n) (c_last (h n)) a j) eqn:E1.
  - right. exists n, (c_last (h n)). split; [lia|]. split; [exact E1|]. split; [auto|]. intros k' K'. lia.
  - destruct (hit d t (h n) (negb (c_last (h n))) a j) eqn:E2.
    + right. exists n, (negb (c_last (h n))). split; [lia|]. split; [exact E2|]. split; [rewrite negb_involutive; congruence|]. intros k' K'. lia.
    + assert (X : forall p, hit d t (h n) p a j = false) by (intros p; destruct p, (c_last (h n)); cbn in *; congruence).
      destruct IH as [U|[k [p [K [H [L N]]]]]].
      * left. intros k p K. destruct (Nat.eq_dec k n) as [ ->|]; [apply X|apply U; lia].
      * right. exists k, p. split; [lia|]. split; [exact H|]. split; [exact L|]. intros k' K' p'. destruct (Nat.eq_dec k' n) as [ ->|]; [apply X|apply N; lia].
Qed.

(** * A program and a memory *)
(** Executions of the source cycle by cycle; [q0 n]: change of the values at the beginning of cycle [n], [pre n]: always_before. For each cycle, the values
    at its beginning and at its end. *)
Inductive sexe (prog : list stmt) (q0 pre : nat -> store -> store) (a : FsmSource.config * store) : FsmSource.config * store -> list (store * store) -> Prop :=
| se_start : sexe prog q0 pre a a []
| se_cycle c s c1 c2 s2 l : sexe prog q0 pre a (c, s) l -> tick c c1 -> silents prog (c1, pre (length l) (q0 (length l) s)) (c2, s2) ->
    sexe prog q0 pre a (c2, s2) (l ++ [(q0 (length l) s, s2)])
| se_over c s l : sexe prog q0 pre a (c, s) l -> over prog c ->
    sexe prog q0 pre a (c, pre (length l) (q0 (length l) s)) (l ++ [(q0 (length l) s, pre (length l) (q0 (length l) s))]).

Section Program.
  Variables (a : alg) (fuel : nat) (unit : bool) (deps0 : list var) (p : list stmt) (m : fsm) (vr : var -> option upd_rhs) (inp pre : nat -> store -> store).
  Variables (d : dims) (t : tmpl) (v : mvars) (delayed : bool) (last : nat -> bool) (x : nat -> Z).
  Hypothesis CA : a_auto a = false.
  Hypothesis CP : compile fuel unit deps0 p = Some m.
  Hypothesis LG : Legal deps0 pre p.
  Notation prog := (body unit p).
  Notation run := (sys_run a m vr inp pre (fun _ => false) (fun _ => true) d t v delayed last x).
  (** What the memory sees, taken from the stores at the beginning and at the end of each cycle. *)
  Definition shown (l : list (store * store)) (n : nat) : cyc :=
    accesses v (last n) (x n) (match nth_error l n with Some (q, D) => seen delayed q D | None => fun _ => 0 end).

  Lemma mem_at_ext h h' s n : (forall k, (k < n)%nat -> h k = h' k) -> mem_at d t h n s = mem_at d t h' n s.
  Proof. induction n as [|n IH]; intros E; [reflexivity|]. cbn [mem_at]. rewrite IH by (intros; apply E; lia). now rewrite E by lia. Qed.
  Lemma shown_app l e n : (n < length l)%nat -> shown (l ++ [e]) n = shown l n.
  Proof. intros H. unfold shown. now rewrite nth_error_app1. Qed.
  Lemma shown_last l q D : shown (l ++ [(q, D)]) (length l) = accesses v (last (length l)) (x (length l)) (seen delayed q D).
  Proof. unfold shown. rewrite nth_error_app2, Nat.sub_diag by lia. reflexivity. Qed.
  Lemma sexe_ext pr q0 q0' b e l : sexe pr q0 pre b e l -> (forall n s, (n < length l)%nat -> q0 n s = q0' n s) -> sexe pr q0' pre b e l.
  Proof.
    induction 1 as [|c s c1 c2 s2 l S IH T SI|c s l S IH O]; intros E; [constructor| |].
    - rewrite app_length in E. cbn in E. rewrite (E (length l)) by lia. eapply se_cycle; [apply IH; intros; apply E; lia|exact T|]. rewrite <- (E (length l)) by lia. exact SI.
    - rewrite app_length in E. cbn in E. rewrite (E (length l)) by lia. apply se_over; [apply IH; intros; apply E; lia|exact O].
  Qed.

  Lemma program_memory s0 M0 : m_idx s0 = f_entry m -> forall n, exists s M c l,
    run n (s0, M0) = Some (s, M) /\ length l = n /\ M = mem_at d t (shown l) n M0 /\
    sexe prog (fun k st => see v (m_out (mem_at d t (shown l) k M0)) (inp k st)) pre (Run (SStep :: prog) KStop, m_q s0) (c, m_q s) l.
  Proof.
    intros E0 n. destruct (follow_step _ _ _ _ _ CP (l_jump _ _ _ LG) (l_cover _ _ _ LG)) as [I F].
    enough (X : exists s M c l, run n (s0, M0) = Some (s, M) /\ length l = n /\ M = mem_at d t (shown l) n M0 /\
      sexe prog (fun k st => see v (m_out (mem_at d t (shown l) k M0)) (inp k st)) pre (Run (SStep :: prog) KStop, m_q s0) (c, m_q s) l /\ I (m_idx s) c).
    { destruct X as [s [M [c [l [X1 [X2 [X3 [X4 _]]]]]]]]. exists s, M, c, l. auto. }
    induction n as [|n [s [M [c [l [R [L [EM [X Ic]]]]]]]]].
    - exists s0, M0, (Run (SStep :: prog) KStop), []. split; [reflexivity|]. split; [reflexivity|]. split; [reflexivity|]. split; [constructor|]. rewrite E0. apply (fo_entry _ _ _ _ _ F).
    - set (q := begin_q inp v n s M).
      assert (SEE : see v (m_out (mem_at d t (shown l) n M0)) (inp n (m_q s)) = q) by (rewrite <- EM; reflexivity).
      assert (EXT : forall e k, (k <= n)%nat -> mem_at d t (shown (l ++ [e])) k M0 = mem_at d t (shown l) k M0).
      { intros e k K. apply mem_at_ext. intros k' K'. apply shown_app. lia. }
      assert (SX : forall e, sexe prog (fun k st => see v (m_out (mem_at d t (shown (l ++ [e])) k M0)) (inp k st)) pre (Run (SStep :: prog) KStop, m_q s0) (c, m_q s) l).
      { intros e. eapply sexe_ext; [exact X|]. intros k st K. cbn beta. now rewrite EXT by lia. }
      assert (ML : forall D, mem_at d t (shown (l ++ [(q, D)])) (S n) M0 = mem_step d t M (accesses v (last n) (x n) (seen delayed q D))).
      { intros D. cbn [mem_at]. rewrite EXT by lia. rewrite <- EM. f_equal. rewrite <- L at 1. rewrite shown_last. now rewrite L. }
      cbn [sys_run obind]. rewrite R. cbn [obind sys_step]. fold q.
      destruct (Nat.eq_dec (m_idx s) 0) as [Z|NZ].
      + rewrite Z. change (cycle m q (pre n q) 0) with (Some (pre n q, 0%nat)). cbn [obind].
        exists {| m_q := pre n q; m_idx := 0; m_auto := auto_edge false |}, (mem_at d t (shown (l ++ [(q, pre n q)])) (S n) M0), c, (l ++ [(q, pre n q)]).
        split; [|split; [rewrite app_length; cbn; lia|split; [reflexivity|split]]].
        * rewrite ML. unfold idx_edge, next_state, mod_edge. rewrite CA. reflexivity.
        * cbn [m_q]. pose proof (SX (q, pre n q)) as Y. pose proof (se_over _ _ _ _ _ _ _ Y (fo_over _ _ _ _ _ F c ltac:(rewrite <- Z; exact Ic))) as W. cbn beta in W.
          rewrite L, EXT, SEE in W by lia. exact W.
        * cbn [m_idx]. now rewrite Z in Ic.
      + assert (AG : agree q (pre n q) deps0) by (intros y Hy; now apply (l_pre _ _ _ LG)).
        destruct (fo_cycle _ _ _ _ _ F (m_idx s) c q (pre n q) Ic NZ AG (l_wait _ _ _ LG)) as [D [i [c1 [c2 [C1 [C2 [C3 C4]]]]]]].
        rewrite C1. cbn [obind].
        exists {| m_q := D; m_idx := i; m_auto := auto_edge false |}, (mem_at d t (shown (l ++ [(q, D)])) (S n) M0), c2, (l ++ [(q, D)]).
        split; [|split; [rewrite app_length; cbn; lia|split; [reflexivity|split]]].
        * rewrite ML. unfold idx_edge, next_state, mod_edge. rewrite CA. reflexivity.
        * cbn [m_q]. pose proof (SX (q, D)) as Y. assert (W := se_cycle prog _ pre _ _ _ c1 c2 D _ Y C2). cbn beta in W.
          rewrite L, EXT, SEE in W by lia. apply W. exact C3.
        * exact C4.
  Qed.
End Program.
