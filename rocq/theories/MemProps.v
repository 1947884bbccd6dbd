(** C45: a memory returns what was written. *)
From Coq Require Import String List Bool Arith ZArith Lia.
Import ListNotations.
From Verif Require Import FsmModel FsmEmit FsmLayout FsmRegion FsmStates FsmArms FsmSource FsmCorrect FsmRun FsmBig FsmStep FsmProps RegModel RegProps WidthModel WidthProofs MemModel MemProofs.
Local Open Scope Z_scope.

(** Every template, every pattern of clock edges: when a port is not writing a word, the bits read at an edge are those written last by an earlier cycle,
    by any port, at this address, or the initial ones. *)
Theorem C45_read_partial : forall d t h s0 n p j, good d t -> portr t p <> NoRead -> p_edge (ppin (h n) p) = true -> writing d t p (ppin (h n) p) = false ->
  (address d (ppin (h n) p) < d_size d)%nat -> 0 <= j < d_dw d ->
  let a := address d (ppin (h n) p) in let r := Z.testbit (m_out (mem_at d t h (S n) s0) p) j in
  (unwritten d t h n a j -> r = Z.testbit (m_buf s0 a) j) /\ (forall k p', newest d t h n a j k p' -> r = Z.testbit (p_wd (ppin (h k) p')) j) /\
  (unwritten d t h n a j \/ exists k p', newest d t h n a j k p').
Proof.
  intros d t h s0 n p j G P E W A J a r.
  assert (R : r = Z.testbit (m_buf (mem_at d t h n s0) a) j).
  { unfold r. cbn [mem_at]. set (s := mem_at d t h n s0). assert (O : m_out (mem_step d t s (h n)) p = new_out d t (h n) p s) by (now destruct p).
    rewrite O. unfold new_out. rewrite E, W. unfold read. fold a. destruct (Nat.ltb_spec a (d_size d)); [|unfold a in *; lia]. destruct (portr t p); congruence. }
  destruct (content d t h s0 a j G A J n) as [C1 C2]. split; [|split].
  - intros U. rewrite R. auto.
  - intros k p' N. rewrite R. eauto.
  - apply newest_or.
Qed.
Print Assumptions C45_read_partial.

(** Bits above the width are never set. *)
Lemma high d t h s0 a : good d t -> (forall j, d_dw d <= j -> Z.testbit (m_buf s0 a) j = false) -> forall n j, d_dw d <= j -> Z.testbit (m_buf (mem_at d t h n s0) a) j = false.
Proof.
  intros [W G] H0. induction n as [|n IH]; intros j J; [now apply H0|]. cbn [mem_at mem_step m_buf]. unfold new_buf.
  assert (DW1 : forall p b, (forall j, d_dw d <= j -> Z.testbit (b a) j = false) -> forall j, d_dw d <= j -> Z.testbit (do_write d t (h n) p b a) j = false).
  { clear j J. intros p b Hb j J. unfold do_write. destruct (_ && _); [|now apply Hb]. destruct (_ =? _)%nat; [|now apply Hb]. unfold write_entry. destruct (portw t p) as [| |g] eqn:P; [now apply Hb| |].
    - destruct (truth _); [|now apply Hb]. unfold vec, vwidth. destruct (Z.eqb_spec (d_dw d) 0); [lia|]. apply Z.mod_pow2_bits_high. lia.
    - specialize (G p g P). rewrite mask_bit by lia. rewrite Z2Nat.id by (apply Z.div_pos; lia).
      destruct (Z.ltb_spec (j / g) (d_dw d / g)) as [L|L]; [|now apply Hb]. exfalso. pose proof (Z.div_le_mono (d_dw d) j g G J). lia. }
  apply DW1; [|exact J]. apply DW1. exact IH.
Qed.

(** Memories written by words: the value read is the last value written at this address, on the width of the memory, or the initial one. *)
Theorem C45_word_partial : forall d t h s0 n p, good d t -> (forall p' g, portw t p' <> Mask g) -> portr t p <> NoRead -> p_edge (ppin (h n) p) = true ->
  writing d t p (ppin (h n) p) = false -> (address d (ppin (h n) p) < d_size d)%nat ->
  let a := address d (ppin (h n) p) in let r := m_out (mem_at d t h (S n) s0) p in
  0 <= m_buf s0 a < 2 ^ d_dw d ->
  (unwritten d t h n a 0 -> r = m_buf s0 a) /\ (forall k p', newest d t h n a 0 k p' -> r = p_wd (ppin (h k) p') mod 2 ^ d_dw d).
Proof.
  intros d t h s0 n p G NM P E W A a r B. assert (GW := G). destruct GW as [DW _].
  assert (HJ : forall c p' a' j, hit d t c p' a' j = hit d t c p' a' 0).
  { intros c p' a' j. unfold hit, covers. destruct (portw t p') as [| |g] eqn:X; [reflexivity|reflexivity|]. now destruct (NM p' g). }
  assert (R : r = m_buf (mem_at d t h n s0) a).
  { unfold r. cbn [mem_at]. set (s := mem_at d t h n s0). assert (O : m_out (mem_step d t s (h n)) p = new_out d t (h n) p s) by (now destruct p).
    rewrite O. unfold new_out. rewrite E, W. unfold read. fold a. destruct (Nat.ltb_spec a (d_size d)); [|unfold a in *; lia]. destruct (portr t p); congruence. }
  assert (H0 : forall j, d_dw d <= j -> Z.testbit (m_buf s0 a) j = false).
  { intros j J. rewrite <- (Z.mod_small _ _ B). apply Z.mod_pow2_bits_high. lia. }
  split.
  - intros U. rewrite R. apply Z.bits_inj'. intros j J. destruct (Z.lt_ge_cases j (d_dw d)) as [L|L].
    + apply (content d t h s0 a j G A ltac:(lia) n). intros k p' K. rewrite HJ. now apply U.
    + rewrite H0 by lia. now apply high.
  - intros k p' [K [H [L N]]]. rewrite R. apply Z.bits_inj'. intros j J. destruct (Z.lt_ge_cases j (d_dw d)) as [X|X].
    + rewrite Z.mod_pow2_bits_low by lia. apply (content d t h s0 a j G A ltac:(lia) n). split; [exact K|]. rewrite (HJ _ p'), (HJ _ (negb p')). split; [exact H|]. split; [exact L|]. intros k' K' q. rewrite HJ. now apply N.
    + rewrite Z.mod_pow2_bits_high by lia. now apply high.
Qed.
Print Assumptions C45_word_partial.
(** Port 0 writes 7 then 300 at address 2 of a memory of 8 bits, then reads it, then an address never written. *)
Definition d45 : dims := {| d_size := 4; d_aw := 2; d_dw := 8; d_we0 := 1; d_we1 := 1 |}.
Definition off : pin := {| p_edge := false; p_we := 0; p_wd := 0; p_ad := 0 |}.
Definition pw (ad wd : Z) : pin := {| p_edge := true; p_we := 1; p_wd := wd; p_ad := ad |}.
Definition pr (ad : Z) : pin := {| p_edge := true; p_we := 0; p_wd := 99; p_ad := ad |}.
Definition only0 (l : list pin) (n : nat) : cyc := {| c_p0 := nth n l off; c_p1 := off; c_last := false; c_x := -1 |}.
Definition m45 : mem := {| m_buf := initial d45 [42; 43; 44; 45] (fun _ => 0); m_o0 := 0; m_o1 := 0 |}.
Definition h45 : nat -> cyc := only0 [pw 2 7; pw 2 300; pr 2; pr 1].
Example C45_word_ex : good d45 bram_syn /\ newest d45 bram_syn h45 2 2 0 1 false /\ unwritten d45 bram_syn h45 3 1 0 /\
  map (fun n => m_o0 (mem_at d45 bram_syn h45 n m45)) [1; 2; 3; 4]%nat = [44; 7; 44; 43].
Proof.
  split; [split; [reflexivity|intros [|] g; discriminate]|]. split; [|split; [|reflexivity]].
  - split; [lia|]. split; [reflexivity|]. split; [discriminate|]. intros k' K. lia.
  - intros k p K. destruct k as [|[|[|k]]]; [destruct p; reflexivity|destruct p; reflexivity|destruct p; reflexivity|lia].
Qed.

(** A brom, and any memory until an entry is written: the value given in the declaration, on the width of the memory. *)
Theorem C45_rom : forall d h o0 o1 u l n v, 0 < d_dw d -> p_edge (ppin (h n) false) = true -> (address d (ppin (h n) false) < d_size d)%nat ->
  nth_error l (address d (ppin (h n) false)) = Some v ->
  m_out (mem_at d brom h (S n) {| m_buf := initial d l u; m_o0 := o0; m_o1 := o1 |}) false = v mod 2 ^ d_dw d.
Proof.
  intros d h o0 o1 u l n v W E A V. set (s0 := {| m_buf := initial d l u; m_o0 := o0; m_o1 := o1 |}).
  assert (I : m_buf s0 (address d (ppin (h n) false)) = v mod 2 ^ d_dw d).
  { unfold s0. cbn [m_buf]. unfold initial. rewrite V. unfold vec, vwidth. destruct (Z.eqb_spec (d_dw d) 0); [lia|reflexivity]. }
  rewrite <- I. apply C45_word_partial; try assumption.
  - split; [exact W|]. intros [|] g H; discriminate.
  - intros [|] g; discriminate.
  - discriminate.
  - reflexivity.
  - rewrite I. apply Z.mod_pos_bound. apply Z.pow_pos_nonneg; lia.
  - intros k p K. unfold hit. destruct p; cbn [portw brom t_w0 t_w1 covers]; apply andb_false_r.
Qed.
Print Assumptions C45_rom.
Example C45_rom_ex : m_o0 (mem_at d45 brom (only0 [pr 3; pw 1 7; pr 1]) 3 {| m_buf := initial d45 [1; -1; 300; 4] (fun _ => 0); m_o0 := 0; m_o1 := 0 |}) = 255.
Proof. reflexivity. Qed.

(** Without an edge of its clock the output of a port is kept. *)
Theorem C45_hold : forall d t h s0 p n k, (forall i, (n <= i < n + k)%nat -> p_edge (ppin (h i) p) = false) -> m_out (mem_at d t h (n + k) s0) p = m_out (mem_at d t h n s0) p.
Proof.
  intros d t h s0 p n. induction k as [|k IH]; intros H; [now rewrite Nat.add_0_r|]. rewrite Nat.add_succ_r. cbn [mem_at].
  assert (O : forall s c, m_out (mem_step d t s c) p = new_out d t c p s) by (intros; now destruct p). rewrite O. unfold new_out. rewrite H by lia. apply IH. intros; apply H; lia.
Qed.
Print Assumptions C45_hold.

(** * Addresses *)
(** Each entry is designated by its number, and an access outside of the buffer changes nothing. *)
Theorem C45_address : forall size dw w0 w1 a e we wd, (a < size)%nat ->
  address {| d_size := size; d_aw := mem_addr_width (Z.of_nat size); d_dw := dw; d_we0 := w0; d_we1 := w1 |} {| p_edge := e; p_we := we; p_wd := wd; p_ad := Z.of_nat a |} = a.
Proof.
  intros size dw w0 w1 a e we wd A. unfold address, vec. cbn [d_aw p_ad].
  pose proof (mem_address_covers (Z.of_nat size) (Z.of_nat a) ltac:(lia) ltac:(lia)) as M. rewrite Z.mod_small; [apply Nat2Z.id|].
  split; [lia|]. unfold vwidth. destruct (Z.eqb_spec (mem_addr_width (Z.of_nat size)) 0) as [E|E]; [rewrite E in M; cbn in *; lia|lia].
Qed.
Print Assumptions C45_address.
Theorem C45_outside : forall d t c b a, (forall p, p_edge (ppin c p) = true -> (d_size d <= address d (ppin c p))%nat) -> new_buf d t c b a = b a.
Proof.
  intros d t c b a H. unfold new_buf, do_write.
  assert (X : forall p, p_edge (ppin c p) && (address d (ppin c p) <? d_size d)%nat = false).
  { intros p. destruct (p_edge (ppin c p)) eqn:E; [|reflexivity]. cbn. apply Nat.ltb_ge. now apply H. }
  now rewrite !X.
Qed.
Print Assumptions C45_outside.
(** A memory of one entry is addressed with two bits, so that most accesses are outside of it. *)
Theorem C45_single_refuted : let d := {| d_size := 1; d_aw := mem_addr_width 1; d_dw := 8; d_we0 := 1; d_we1 := 1 |} in
  m_o0 (mem_at d bram_syn (only0 [pw 0 7; pr 0]) 2 m45) = 7 /\ m_o0 (mem_at d bram_syn (only0 [pw 1 7; pr 1]) 2 m45) = -1.
Proof. vm_compute. auto. Qed.
Print Assumptions C45_single_refuted.

(** * Reading while writing *)
(** In simulation and in hardware the contents are the same in every cycle, and so is what is read when not writing. *)
Theorem C45_simulation_partial : forall d h s0 n,
  (forall a, m_buf (mem_at d bram_sim h n s0) a = m_buf (mem_at d bram_syn h n s0) a) /\
  (writing d bram_sim false (ppin (h n) false) = false -> p_edge (ppin (h n) false) = true ->
   m_o0 (mem_at d bram_sim h (S n) s0) = m_o0 (mem_at d bram_syn h (S n) s0)).
Proof.
  intros d h s0 n. assert (B : forall n a, m_buf (mem_at d bram_sim h n s0) a = m_buf (mem_at d bram_syn h n s0) a).
  { clear n. induction n as [|n IH]; intros a; [reflexivity|]. cbn [mem_at mem_step m_buf]. unfold new_buf, do_write.
    repeat match goal with |- context [if ?c then _ else _] => destruct c end; cbn beta; unfold write_entry; repeat match goal with |- context [portw ?t ?p] => destruct p; cbn [portw t_w0 t_w1 bram_sim bram_syn] end;
    repeat match goal with |- context [if ?c then _ else _] => destruct c end; auto. }
  split; [apply B|]. intros W E. cbn [mem_at mem_step m_o0]. unfold new_out. rewrite E. cbn [portr bram_sim bram_syn t_r0]. rewrite W. unfold read. now rewrite B.
Qed.
Print Assumptions C45_simulation_partial.
(** In the cycle after a write they differ: the new value in simulation, the previous one in hardware; a dual port memory gives none of them. *)
Theorem C45_write_refuted : forall d s x (p := pw 0 x), 1 <= d_we0 d -> (0 < d_size d)%nat -> 1 <= d_aw d -> let c := {| c_p0 := p; c_p1 := off; c_last := false; c_x := 0 |} in
  m_o0 (mem_step d bram_sim s c) = vec (d_dw d) x /\ m_o0 (mem_step d bram_syn s c) = m_buf s 0%nat /\ m_o0 (mem_step d dual s c) = m_o0 s /\
  m_buf (mem_step d dual s c) 0%nat = vec (d_dw d) x.
Proof.
  intros d s x p W S AW c.
  assert (T : truth (vec (d_we0 d) 1) = true).
  { unfold vec, vwidth. destruct (Z.eqb_spec (d_we0 d) 0); [lia|]. rewrite Z.mod_small; [reflexivity|]. split; [lia|]. change 1 with (2 ^ 0) at 1. apply Z.pow_lt_mono_r; lia. }
  assert (A : address d p = 0%nat) by (unfold address, vec; cbn [p p_ad pw]; now rewrite Z.mod_0_l by (apply Z.pow_nonzero; [lia|unfold vwidth; destruct (Z.eqb_spec (d_aw d) 0); lia])).
  assert (L : (0 <? d_size d)%nat = true) by (now apply Nat.ltb_lt).
  cbn [mem_step m_o0 m_buf]. unfold new_out, new_buf, do_write, writing, read. cbn [ppin c c_p0 c_p1 c_last negb p_edge off andb p pw].
  fold (pw 0 x). fold p. rewrite A, L. cbn [portr portw bram_sim bram_syn dual t_r0 t_w0 wew p_we p pw write_entry Nat.eqb p_wd]. rewrite T. auto.
Qed.
Print Assumptions C45_write_refuted.
(** Both ports write the same entry: what it contains depends on the order of the always blocks. *)
Theorem C45_both_refuted : exists c, m_buf (mem_step d45 dual m45 c) 1%nat <> m_buf (mem_step d45 dual m45 {| c_p0 := c_p0 c; c_p1 := c_p1 c; c_last := negb (c_last c); c_x := c_x c |}) 1%nat.
Proof. exists {| c_p0 := pw 1 5; c_p1 := pw 1 6; c_last := false; c_x := 0 |}. vm_compute. discriminate. Qed.
Print Assumptions C45_both_refuted.

(** The dual port template for Altera returns the value being written on both ports; simple dual ports read on port 0 what the entry contained before the
    edge, even if port 1 writes it, and their port 1 never reads. *)
Theorem C45_ports : forall d s c,
  (forall p, p_edge (ppin c p) = true -> writing d dual_altera p (ppin c p) = true -> m_out (mem_step d dual_altera s c) p = vec (d_dw d) (p_wd (ppin c p))) /\
  (forall t, In t [simple; simple_wmask; simple_half] -> p_edge (c_p0 c) = true -> (address d (c_p0 c) < d_size d)%nat ->
     m_o0 (mem_step d t s c) = m_buf s (address d (c_p0 c)) /\ m_o1 (mem_step d t s c) = m_o1 s /\
     (p_edge (c_p1 c) = false -> forall a, m_buf (mem_step d t s c) a = m_buf s a)).
Proof.
  intros d s c. split.
  - intros p E W. assert (O : m_out (mem_step d dual_altera s c) p = new_out d dual_altera c p s) by (now destruct p). rewrite O. unfold new_out. rewrite E, W. now destruct p.
  - intros t T E A. apply Nat.ltb_lt in A. cbn [mem_step m_o0 m_o1 m_buf]. unfold new_out. cbn [ppin]. rewrite E. unfold read. rewrite A.
    assert (R : portr t false = ReadAlways /\ portr t true = NoRead /\ portw t false = NoWrite) by (repeat destruct T as [ <-|T]; [..|destruct T]; auto).
    destruct R as [ -> [ -> W]]. split; [reflexivity|]. split; [now destruct (p_edge (c_p1 c))|]. intros E1 a. unfold new_buf.
    assert (X : forall b, do_write d t c true b = b) by (intros b; unfold do_write; cbn [ppin]; now rewrite E1).
    assert (Y : forall b, do_write d t c false b a = b a) by (intros b; unfold do_write; rewrite W; destruct (_ && _); [|reflexivity]; now destruct (_ =? _)%nat).
    destruct (c_last c); cbn [negb]; rewrite ?X, ?Y, ?X; reflexivity.
Qed.
Print Assumptions C45_ports.
Example C45_ports_ex : let c m w := {| c_p0 := pr 2; c_p1 := {| p_edge := true; p_we := m; p_wd := w; p_ad := 2 |}; c_last := true; c_x := 0 |} in
  let d := {| d_size := 4; d_aw := 2; d_dw := 16; d_we0 := 16; d_we1 := 16 |} in let s := {| m_buf := fun a => 0x1234; m_o0 := 0; m_o1 := 0 |} in
  map (fun t => (m_o0 (mem_step d t s (c 2 0xabcd)), m_buf (mem_step d t s (c 2 0xabcd)) 2%nat)) [simple; simple_wmask; simple_half; dual_wmask] =
  [(0x1234, 0xabcd); (0x1234, 0xab34); (0x1234, 0x12c4); (0x1234, 0xab34)].
Proof. reflexivity. Qed.

(** * Masks *)
(** With a mask as wide as the data, a multiple of the parts, a bit is written when the bit of its part is set. *)
Theorem C45_mask_partial : forall d g i j, 0 < g -> 0 <= j < d_dw d -> (g | d_dw d) -> covers d (Mask g) (d_dw d) i j = Z.testbit (p_we i) (j / g).
Proof.
  intros d g i j G J [q E]. cbn [covers].
  assert (Q : d_dw d / g = q) by (rewrite E; apply Z.div_mul; lia). rewrite Q.
  assert (JQ : 0 <= j / g < q) by (split; [apply Z.div_pos; lia|apply Z.div_lt_upper_bound; lia]).
  destruct (Z.ltb_spec (j / g) q); [|lia]. unfold vbit. destruct (Z.eqb_spec q 0); [lia|]. destruct (Z.ltb_spec (j / g) q); [|lia]. cbn [andb]. apply vec_bit; lia.
Qed.
Print Assumptions C45_mask_partial.
Example C45_mask_ex : let d := {| d_size := 4; d_aw := 2; d_dw := 32; d_we0 := 32; d_we1 := 1 |} in good d bram_wmask /\ (8 | 32) /\
  m_o0 (mem_at d bram_wmask (only0 [ {| p_edge := true; p_we := 5; p_wd := 0xaabbccdd; p_ad := 3 |}; {| p_edge := true; p_we := 0; p_wd := 0; p_ad := 3 |} ]) 2
    {| m_buf := fun _ => 0x11223344; m_o0 := 0; m_o1 := 0 |}) = 0x11bb33dd.
Proof. split; [split; [reflexivity|intros [|] g H; inversion H; reflexivity]|]. split; [exists 4; reflexivity|reflexivity]. Qed.
(** With the width 1 most boards give to wenable, only the first part can be written; bits after the last whole part can never be. *)
Theorem C45_mask_refuted :
  (forall d i j, 8 <= j -> covers d (Mask 8) 1 i j = false) /\
  (forall d g ww i j, 0 < g -> d_dw d / g * g <= j -> covers d (Mask g) ww i j = false) /\
  exists d, d_dw d = 12 /\ good d bram_wmask.
Proof.
  split; [|split].
  - intros d i j J. cbn [covers]. change (1 / 8) with 0. unfold vbit. cbn [Z.eqb]. destruct (Z.eqb_spec (j / 8) 0) as [E|E]; [|now rewrite andb_false_r].
    exfalso. pose proof (Z.div_le_mono 8 j 8 ltac:(lia) J) as X. change (8 / 8) with 1 in X. lia.
  - intros d g ww i j G J. cbn [covers]. destruct (Z.ltb_spec (j / g) (d_dw d / g)) as [L|L]; [|reflexivity]. exfalso.
    pose proof (Z.div_le_mono _ _ g G J) as X. rewrite Z.div_mul in X by lia. lia.
  - exists {| d_size := 4; d_aw := 2; d_dw := 12; d_we0 := 12; d_we1 := 12 |}. split; [reflexivity|]. split; [reflexivity|]. intros [|] g H; inversion H; reflexivity.
Qed.
Print Assumptions C45_mask_refuted.

(** * Widths and clocks *)
(** For every configuration the variable of a member and the port it is connected to have the same number of bits. *)
Theorem C45_widths : forall cfg custom memid name w, vwidth (decl_width cfg custom memid name w) = vwidth (match port_width cfg custom memid name w with Some x => x | None => 0 end).
Proof.
  intros. unfold decl_width, port_width. destruct (config_value _ _ _ _ _) as [v|]; [|reflexivity]. destruct (String.eqb v "1"); [reflexivity|]. now destruct (String.eqb v "data").
Qed.
Print Assumptions C45_widths.
(** The width configured for the template given in the declaration is used, else the one of the type of memory, else the width of the data. *)
Theorem C45_config : forall cfg custom memid name w, custom <> ""%string ->
  (forall v, cfg (key custom name "_width") = Some v -> port_width cfg custom memid name w = port_width (fun _ => Some v) "" memid name w) /\
  (cfg (key custom name "_width") = None -> port_width cfg custom memid name w = port_width cfg "" memid name w) /\
  (cfg (key custom name "_width") = None -> cfg (key memid name "_width") = None -> port_width cfg custom memid name w = Some w).
Proof.
  intros cfg custom memid name w NE. unfold port_width, config_value. destruct (String.eqb_spec custom "") as [E|E]; [contradiction|]. cbn [String.eqb].
  split; [|split].
  - intros v ->. reflexivity.
  - intros ->. now destruct (cfg (key "" name "_width")).
  - intros -> ->. reflexivity.
Qed.
Print Assumptions C45_config.
Example C45_config_ex : let cfg := fun k => if String.eqb k "bram_wenable_width" then Some "1"%string else if String.eqb k "bram_wmask_byte_wenable_width" then Some "data"%string else None in
  port_width cfg "" "bram" "wenable" 32 = Some 1 /\ port_width cfg "bram_wmask_byte" "bram" "wenable" 32 = Some 32 /\ port_width cfg "bram_wmask_byte" "bram" "wdata" 32 = Some 32.
Proof. vm_compute. auto. Qed.

(** Clocks given to a memory with two ports are connected in order, both ports have the clock of the algorithm by default. A declaration that gives clocks to
    a memory with one port is accepted, and then an assertion fails. *)
Theorem C45_clocks_partial : forall known t clk a b, known a = true -> known b = true ->
  connect_clocks t clk [] = Done (if two_ports t then [("clock0", clk); ("clock1", clk)]%string else [("clock", clk)]%string) /\
  gather_clocks known [(a, b)] = Done [a; b] /\ (two_ports t = true -> connect_clocks t clk [a; b] = Done [("clock0", a); ("clock1", b)]%string).
Proof. intros known t clk a b A B. split; [reflexivity|]. unfold gather_clocks. cbn. rewrite A, B. split; [reflexivity|]. now intros ->. Qed.
Print Assumptions C45_clocks_partial.
Theorem C45_clocks_refuted : forall known t clk a b l, two_ports t = false -> gather_clocks known [(a, b)] = Done l -> connect_clocks t clk l = Asserts.
Proof. intros known t clk a b l T. unfold gather_clocks. cbn. destruct (known a && known b); [|discriminate]. intros H. injection H as <-. cbn. now rewrite T. Qed.
Print Assumptions C45_clocks_refuted.

(** * Programs *)
(** Every compiled program and every template: the module next to the memory executes the source next to a memory that is given, cycle by cycle, the accesses
    the source makes: at the end of each cycle, or at its beginning for delayed memories. *)
Theorem C45_program_partial : forall a fuel unit deps0 p m vr inp pre d t v delayed last x, a_auto a = false -> compile fuel unit deps0 p = Some m -> Legal deps0 pre p ->
  forall s0 M0, m_idx s0 = f_entry m -> forall n, exists s M c l,
    sys_run a m vr inp pre (fun _ => false) (fun _ => true) d t v delayed last x n (s0, M0) = Some (s, M) /\ length l = n /\
    M = mem_at d t (shown v delayed last x l) n M0 /\
    sexe (body unit p) (fun k st => see v (m_out (mem_at d t (shown v delayed last x l) k M0)) (inp k st)) pre (Run (SStep :: body unit p) KStop, m_q s0) (c, m_q s) l.
Proof. intros. eapply program_memory; eassumption. Qed.
Print Assumptions C45_program_partial.
(** The program of the documentation: wenable = 0; addr = 2; ++: a = rdata. For every contents [a] is the entry, whatever the registers contain before.
    Declared delayed, the memory answers one cycle later and [a] is what was read before. *)
Definition v45 : mvars := {| v_rd := fun p => if p then 11%nat else 1%nat; v_we := fun p => if p then 12%nat else 2%nat; v_wd := fun p => if p then 13%nat else 3%nat;
  v_ad := fun p => if p then 14%nat else 4%nat |}.
Definition doc45 : list stmt := [ SAssign 2%nat (EC 0); SAssign 4%nat (EC 2); SStep; SAssign 0%nat (EV 1%nat) ].
Definition alg45 : alg := {| a_fsm := true; a_auto := false |}.
Definition same45 : nat -> store -> store := fun _ s => s.
Definition run45 (m : fsm) (t : tmpl) (delayed : bool) (n : nat) (w : mod_st * mem) : option (mod_st * mem) :=
  sys_run alg45 m (fun _ => None) same45 same45 (fun _ => false) (fun _ => true) d45 t v45 delayed (fun _ => false) (fun _ => 0) n w.
Theorem C45_documentation : exists m, compile 100 true [] doc45 = Some m /\
  forall q au buf o0 o1, let w := ({| m_q := q; m_idx := f_entry m; m_auto := au |}, {| m_buf := buf; m_o0 := o0; m_o1 := o1 |}) in
  forall t, t = bram_syn \/ t = bram_sim ->
  (exists s M, run45 m t false 2 w = Some (s, M) /\ m_idx s = 0%nat /\ m_q s 0%nat = buf 2%nat) /\
  (q 2%nat = 0 -> q 4%nat = 1 -> exists s M, run45 m t true 2 w = Some (s, M) /\ m_idx s = 0%nat /\ m_q s 0%nat = buf 1%nat).
Proof.
  eexists. split; [vm_compute; reflexivity|]. intros q au buf o0 o1 w t T. split.
  - destruct T as [ ->| ->]; (do 2 eexists; split; [cbv -[Z.modulo]; reflexivity|]); (split; [reflexivity|]); reflexivity.
  - intros Q2 Q4. destruct T as [ ->| ->]; (do 2 eexists; split; [cbv -[Z.modulo]; reflexivity|]); (split; [reflexivity|]); cbn [m_q]; rewrite ?Q2, ?Q4; reflexivity.
Qed.
Print Assumptions C45_documentation.
(** The hypotheses of C45_program_partial hold of a program that writes then reads. *)
Definition wr45 : list stmt := [ SAssign 2%nat (EC 1); SAssign 4%nat (EC 3); SAssign 3%nat (EC 300); SStep; SAssign 2%nat (EC 0); SStep; SAssign 0%nat (EV 1%nat) ].
Example C45_program_ex : exists m, compile 100 true [] wr45 = Some m /\ Legal [] same45 wr45 /\
  option_map (fun w => (m_idx (fst w), m_q (fst w) 0%nat)) (run45 m bram_syn false 3 ({| m_q := fun _ => 0; m_idx := f_entry m; m_auto := false |}, m45)) = Some (0%nat, 44) /\
  option_map (fun w => (m_idx (fst w), m_q (fst w) 0%nat)) (run45 m bram_sim false 3 ({| m_q := fun _ => 0; m_idx := f_entry m; m_auto := false |}, m45)) = Some (0%nat, 44).
Proof. eexists. split; [vm_compute; reflexivity|]. split; [constructor; try reflexivity; intros d x []|]. vm_compute. auto. Qed.

(** In the source: at the beginning of the cycle after an access that does not write, the variable of the read data contains what the program wrote last
    at this address in an earlier cycle, or the initial contents. *)
Lemma sexe_begin prog q0 pre b e l : sexe prog q0 pre b e l -> forall k q D, nth_error l k = Some (q, D) -> exists s, q = q0 k s.
Proof.
  assert (X : forall l c (f : store), (forall k q D, nth_error l k = Some (q, D) -> exists s, q = q0 k s) -> forall k q D, nth_error (l ++ [(q0 (length l) c, f)]) k = Some (q, D) -> exists s, q = q0 k s).
  { intros l0 c f IH k q D N. destruct (Nat.lt_ge_cases k (length l0)) as [L|L]; [rewrite nth_error_app1 in N by lia; eauto|]. rewrite nth_error_app2 in N by lia.
    destruct (k - length l0)%nat as [|i] eqn:Q; [|destruct i; discriminate]. cbn in N. injection N as <- <-. exists c. f_equal. lia. }
  induction 1; [intros [|k]; discriminate| |]; apply X; assumption.
Qed.
Theorem C45_source_partial : forall a fuel unit deps0 p m vr inp pre d t v delayed last x, a_auto a = false -> compile fuel unit deps0 p = Some m -> Legal deps0 pre p ->
  good d t -> v_rd v false <> v_rd v true ->
  forall s0 M0, m_idx s0 = f_entry m -> forall n, exists s M c l,
    sys_run a m vr inp pre (fun _ => false) (fun _ => true) d t v delayed last x n (s0, M0) = Some (s, M) /\ length l = n /\
    sexe (body unit p) (fun k st => see v (m_out (mem_at d t (shown v delayed last x l) k M0)) (inp k st)) pre (Run (SStep :: body unit p) KStop, m_q s0) (c, m_q s) l /\
    forall k q D q' D' port j, nth_error l k = Some (q, D) -> nth_error l (S k) = Some (q', D') ->
      let i := access v port (if delayed then q else D) in
      portr t port <> NoRead -> writing d t port i = false -> (address d i < d_size d)%nat -> 0 <= j < d_dw d ->
      (unwritten d t (shown v delayed last x l) k (address d i) j -> Z.testbit (q' (v_rd v port)) j = Z.testbit (m_buf M0 (address d i)) j) /\
      (forall k' port', newest d t (shown v delayed last x l) k (address d i) j k' port' ->
         Z.testbit (q' (v_rd v port)) j = Z.testbit (p_wd (ppin (shown v delayed last x l k') port')) j).
Proof.
  intros a fuel unit deps0 p m vr inp pre d t v delayed last x CA CP LG G V s0 M0 E0 n.
  destruct (program_memory a fuel unit deps0 p m vr inp pre d t v delayed last x CA CP LG s0 M0 E0 n) as [s [M [c [l [R [L [EM X]]]]]]].
  exists s, M, c, l. split; [exact R|]. split; [exact L|]. split; [exact X|]. intros k q D q' D' port j N N' i P W A J.
  destruct (sexe_begin _ _ _ _ _ _ X _ _ _ N') as [st ->].
  assert (SH : ppin (shown v delayed last x l k) port = i) by (unfold shown; rewrite N; unfold i, seen; now destruct port).
  assert (O : see v (m_out (mem_at d t (shown v delayed last x l) (S k) M0)) (inp (S k) st) (v_rd v port) = m_out (mem_at d t (shown v delayed last x l) (S k) M0) port).
  { unfold see, upd. destruct port; [now rewrite Nat.eqb_refl|]. destruct (Nat.eqb_spec (v_rd v false) (v_rd v true)); [contradiction|]. now rewrite Nat.eqb_refl. }
  rewrite O. destruct (C45_read_partial d t (shown v delayed last x l) M0 k port j G P) as [R1 [R2 _]]; rewrite ?SH; auto. rewrite SH in R1, R2. auto.
Qed.
Print Assumptions C45_source_partial.
