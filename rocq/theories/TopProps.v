(** Property C61. *)
From Coq Require Import String Ascii List Bool Arith NArith ZArith Lia.
From Verif Require Import LiteralModel PinModel PinProofs TopModel TopProofs.
Import ListNotations.
Local Open Scope string_scope.

(** Bits of an entry of a group, and the bit of the top module meant by bit [i] of the entry at position [k] in the group of a port. *)
Definition entry_bits (f : framework) (e : entry) : nat :=
  match e with All p => match pins f p with Some w => Z.to_nat (Z.max 1 w) | None => 0 end | _ => 1 end.
Definition meant (port : string) (k : nat) (e : entry) (i : nat) : string * nat :=
  match e with Bit p b => (p, b) | All p => (p, i) | Number _ => (unused_wire port k, 0) end.
Definition named (e : entry) : Prop := match e with Bit p _ | All p => p <> "" | Number _ => True end.

Lemma entry_ref_width : forall f e, named e -> declared f e -> ref_width f (entry_ref e) = entry_bits f e.
Proof.
  intros f [p b|p|n] N D; cbn [entry_ref ref_width entry_bits fst snd]; unfold ref_width; cbn [fst snd].
  - apply String.eqb_neq in N. rewrite N. assert (Z.of_nat b =? -1 = false)%Z as -> by (apply Z.eqb_neq; lia). reflexivity.
  - apply String.eqb_neq in N. rewrite N. destruct D as (w & ->). reflexivity.
  - reflexivity.
Qed.
Lemma entry_ref_bit : forall port k e i, named e -> ref_bit port k (entry_ref e) i = meant port k e i.
Proof.
  intros port k [p b|p|n] i N; unfold ref_bit; cbn [entry_ref meant fst snd].
  - apply String.eqb_neq in N. rewrite N. assert (Z.of_nat b =? -1 = false)%Z as -> by (apply Z.eqb_neq; lia). rewrite Nat2Z.id. reflexivity.
  - apply String.eqb_neq in N. rewrite N. reflexivity.
  - reflexivity.
Qed.
Lemma total_entries : forall f es, Forall named es -> Forall (declared f) es -> total (map (ref_width f) (map entry_ref es)) = total (map (entry_bits f) es).
Proof.
  intros f es N D. rewrite map_map. f_equal. apply map_ext_in. intros e I. apply entry_ref_width; [exact (proj1 (Forall_forall _ _) N e I)|exact (proj1 (Forall_forall _ _) D e I)].
Qed.

(** A port on a group: counting bits from the last entry, each bit of the port is the bit written in the framework. Entries are pins declared
    before, with bits inside of their pin. *)
Theorem C61_group : forall ds1 name a e b ds2 f ps t d i W,
  declare no_pins (ds1 ++ DGroup name (a ++ e :: b) :: ds2) = Some f ->
  Forall (fun x => ~ names_group name x) ds1 -> Forall (fun x => ~ names_pin name x) (ds1 ++ ds2) ->
  Forall (in_range f) (a ++ e :: b) -> Forall named (a ++ e :: b) ->
  make_top f ps = Some t -> In (name, d) ps -> i < entry_bits f e -> total (map (entry_bits f) b) + i < W ->
  port_bit t (glue_prefix d ++ name) W (total (map (entry_bits f) b) + i) = Some (meant name (length a) e i).
Proof.
  intros ds1 name a e b ds2 f ps t d i W D G P R N T I L LW. destruct (first_group _ _ _ _ _ D G P R) as [U DC].
  destruct (port_refs f ps t name d _ W (total (map (entry_bits f) b) + i) T I U) as [B F]. rewrite B. apply Nat.ltb_lt in LW. rewrite LW.
  apply Forall_app in N. destruct N as [_ N]. inversion N as [|? ? N1 N2]; subst. apply Forall_app in DC. destruct DC as [_ DC]. inversion DC as [|? ? D1 D2]; subst.
  rewrite map_app in F |- *. cbn [map] in F |- *. rewrite <- (total_entries f b N2 D2). rewrite (concat_bit f); [|exact F|rewrite entry_ref_width; assumption].
  rewrite map_length, entry_ref_bit by assumption. reflexivity.
Qed.
Print Assumptions C61_group.

(** A port on a pin: each bit of the port is the same bit of the pin. *)
Theorem C61_pin : forall ds1 name w ds2 f ps t d k W,
  declare no_pins (ds1 ++ DPin name w :: ds2) = Some f -> Forall (fun x => ~ names_pin name x) ds1 -> name <> "" ->
  make_top f ps = Some t -> In (name, d) ps -> k < W -> (Z.of_nat k < Z.max 1 w)%Z ->
  port_bit t (glue_prefix d ++ name) W k = Some (name, k).
Proof.
  intros ds1 name w ds2 f ps t d k W D F NE T I LW L. pose proof (first_pin _ _ _ _ _ D F) as P.
  assert (U : pinsUsedByIOPort f name = Some [(name, (-1)%Z)]) by (unfold pinsUsedByIOPort; rewrite P; reflexivity).
  destruct (port_refs f ps t name d _ W k T I U) as [B WO]. rewrite B. apply Nat.ltb_lt in LW. rewrite LW.
  pose proof (concat_bit f t name [] (name, (-1)%Z) [] k WO) as C. cbn [map total Nat.add app length] in C. apply String.eqb_neq in NE.
  refine (eq_trans (C _) _); unfold ref_width, ref_bit; cbn [fst snd]; rewrite NE; cbn [Z.eqb Pos.eqb]; [|reflexivity]. rewrite P. unfold bits_of. lia.
Qed.
Print Assumptions C61_pin.

(** Bits of a port above its group or pin are connected to nothing. *)
Theorem C61_above : forall f ps t name d l k W,
  make_top f ps = Some t -> In (name, d) ps -> pinsUsedByIOPort f name = Some l -> total (map (ref_width f) l) <= k ->
  port_bit t (glue_prefix d ++ name) W k = None.
Proof.
  intros f ps t name d l k W T I U L. destruct (port_refs f ps t name d _ W k T I U) as [B WO]. rewrite B, (concat_above f); [destruct (k <? W)%nat; reflexivity|exact WO|exact L].
Qed.
Print Assumptions C61_above.

(** Each net of the concatenations is declared: pins in the signature, with the width of the framework, wires of skipped bits beside. *)
Theorem C61_declared : forall f ps t cell es e, make_top f ps = Some t -> In (cell, es) (t_glue t) -> In e es ->
  match e with
  | EUnused _ _ => In (element_net e) (t_wires t)
  | EWhole p | ESelect p _ => exists d w, pins f p = Some w /\ In (d, (if (1 <? w)%Z then Some (w - 1)%Z else None), p) (t_signature t)
  end.
Proof.
  intros f ps t cell es e T I J. destruct (make_top_parts _ _ _ T) as (u & A & S & WI & G). rewrite G in I. apply in_map_iff in I. destruct I as ([p d] & E & Q). cbn [fst snd] in E. injection E as _ <-.
  destruct (unused_elements _ _ _ _ J) as [(j & -> & U)|(r & R & N & EN & NU)].
  - rewrite WI. apply in_flat_map. exists (p, d). split; [exact Q|exact U].
  - assert (K : exists d w, pins f (fst r) = Some w /\ In (d, (if (1 <? w)%Z then Some (w - 1)%Z else None), fst r) (t_signature t)).
    { destruct (pinsUsedByIOPort f p) as [l|] eqn:UL; [|destruct R]. destruct (ref_used _ _ _ _ _ _ _ T Q UL R N) as (u' & S' & U'). destruct (signatures_find _ _ _ _ S' U') as (d' & w & P & _ & F).
      exists d', w. split; [exact P|]. apply find_some in F. exact (proj1 F). }
    destruct e; cbn [element_net] in EN; [destruct (NU _ _ eq_refl)|rewrite EN; exact K|rewrite EN; exact K].
Qed.
Print Assumptions C61_declared.

(** No pin is declared twice in the signature, no wire twice. *)
Theorem C61_once : forall f ps t, make_top f ps = Some t -> NoDup (map fst ps) -> NoDup (map (fun x => snd x) (t_signature t)) /\ NoDup (t_wires t).
Proof.
  intros f ps t T N. destruct (make_top_parts _ _ _ T) as (u & A & S & WI & G). split.
  - rewrite (signatures_names _ _ _ S). apply (used_nodup _ _ _ _ A). constructor.
  - rewrite WI. apply (wires_nodup (fun p => match pinsUsedByIOPort f p with Some l => l | None => [] end)). exact N.
Qed.
Print Assumptions C61_once.

(** A pin used whole by a port is in the signature with the direction of the port. *)
Theorem C61_direction : forall f ps t cell es p, make_top f ps = Some t -> In (cell, es) (t_glue t) -> In (EWhole p) es ->
  exists port d w, In (port, d) ps /\ cell = glue_prefix d ++ port /\ pins f p = Some w /\ In (d, (if (1 <? w)%Z then Some (w - 1)%Z else None), p) (t_signature t).
Proof.
  intros f ps t cell es p T I J. destruct (make_top_parts _ _ _ T) as (u & A & S & WI & G). rewrite G in I. apply in_map_iff in I. destruct I as ([q d] & E & Q). cbn [fst snd] in E. injection E as <- <-.
  destruct (pinsUsedByIOPort f q) as [l|] eqn:UL; [|destruct J].
  assert (R : In (p, (-1)%Z) l /\ p <> "").
  { clear - J. revert J. generalize 0 as k. induction l as [|[x z] l IH]; intros k J; [destruct J|]. rewrite elements_cons in J. destruct J as [J|J].
    - unfold element_of in J. cbn [fst snd] in J. destruct (String.eqb x "") eqn:X; [discriminate|]. apply String.eqb_neq in X. destruct (z =? -1)%Z eqn:Z1; [|discriminate]. injection J as <-. apply Z.eqb_eq in Z1. subst z. split; [left; reflexivity|exact X].
    - destruct (IH _ J) as [B C]. split; [right; exact B|exact C]. }
  destruct R as [R NE]. assert (C : In (q, d, (p, (-1)%Z)) (connections f ps)).
  { unfold connections. apply in_flat_map. exists (q, d). split; [exact Q|]. cbn [fst snd]. rewrite UL. apply in_map_iff. exists (p, (-1)%Z). split; [reflexivity|]. apply filter_In. split; [exact R|]. cbn [fst]. apply String.eqb_neq in NE. rewrite NE. reflexivity. }
  pose proof (direction_ok _ _ _ _ _ _ _ A C) as DO. exists q, d.
  assert (K : forall v s, signatures f v = Some s -> In (p, d) v -> exists w, pins f p = Some w /\ In (d, (if (1 <? w)%Z then Some (w - 1)%Z else None), p) s).
  { clear. induction v as [|x v IH]; intros s H I; [destruct I|]. cbn [signatures] in H. unfold signature_of in H. destruct (pins f (fst x)) as [w|] eqn:P; [|discriminate]. destruct (signatures f v) as [y|]; [|discriminate]. injection H as <-. destruct I as [->|I].
    - exists w. split; [exact P|]. left. reflexivity.
    - destruct (IH y eq_refl I) as (w' & B & C). exists w'. split; [exact B|right; exact C]. }
  destruct (K _ _ S DO) as (w & B & D). exists w. split; [exact Q|]. split; [reflexivity|]. split; [exact B|exact D].
Qed.
Print Assumptions C61_direction.

(** A board: eight leds, a button, a connector of four pins with two leds, a bit skipped and the button. *)
Definition board := [DPin "leds" 8; DPin "btn" 1; DPin "sd" 4; DGroup "pmod" [Bit "leds" 7; Bit "leds" 0; Number 0; All "sd"]].
Definition on_board (ds : list decl) (ps : list (string * ptype)) : option top := match declare no_pins ds with Some f => make_top f ps | None => None end.
Example C61_ex : on_board board [("btn", Input); ("pmod", Output)]
  = Some {| t_signature := [(Input, None, "btn"); (Output, Some 7%Z, "leds"); (Output, Some 3%Z, "sd")]; t_wires := ["__unused_pmod_2"];
            t_glue := [(".in_btn", [EWhole "btn"]); (".out_pmod", [ESelect "leds" 7; ESelect "leds" 0; EUnused "pmod" 2; EWhole "sd"])] |}.
Proof. reflexivity. Qed.
Example C61_bits_ex : match on_board board [("btn", Input); ("pmod", Output)] with
  | Some t => map (port_bit t ".out_pmod" 7) [0; 3; 4; 5; 6; 7] = [Some ("sd", 0); Some ("sd", 3); Some ("__unused_pmod_2", 0); Some ("leds", 0); Some ("leds", 7); None]
  | None => False end.
Proof. reflexivity. Qed.
Example C61_hyps_ex : exists f t, declare no_pins board = Some f /\ make_top f [("btn", Input); ("pmod", Output)] = Some t
  /\ Forall (fun x => ~ names_group "pmod" x) [DPin "leds" 8; DPin "btn" 1; DPin "sd" 4] /\ Forall (fun x => ~ names_pin "pmod" x) [DPin "leds" 8; DPin "btn" 1; DPin "sd" 4]
  /\ Forall (in_range f) [Bit "leds" 7; Bit "leds" 0; Number 0; All "sd"].
Proof.
  eexists _, _. split; [reflexivity|]. split; [vm_compute; reflexivity|]. split; [|split].
  - repeat constructor; cbn; intro H; exact H.
  - repeat constructor; cbn; discriminate.
  - repeat constructor; cbn; intros w H; injection H as <-; reflexivity.
Qed.

(** A bit outside of its pin leaves the group without a message: the entries before it move down. *)
Theorem C61_outside_refuted : exists ds t, ds = [DPin "leds" 8; DPin "btn" 1; DGroup "p" [All "btn"; Bit "leds" 8; Bit "leds" 0]]
  /\ on_board ds [("p", Output)] = Some t /\ port_bit t ".out_p" 3 1 = Some ("btn", 0) /\ port_bit t ".out_p" 3 2 = None.
Proof. eexists _, _. split; [reflexivity|]. split; [vm_compute; reflexivity|]. split; reflexivity. Qed.
Print Assumptions C61_outside_refuted.
(** The bit of a pin of one bit is selected in a name declared without range, which Verilog rejects. *)
Theorem C61_select_refuted : exists ds t, ds = [DPin "btn" 1; DGroup "p" [Bit "btn" 0]]
  /\ on_board ds [("p", Input)] = Some t /\ In (".in_p", [ESelect "btn" 0]) (t_glue t) /\ In (Input, None, "btn") (t_signature t).
Proof. eexists _, _. split; [reflexivity|]. split; [vm_compute; reflexivity|]. split; left; reflexivity. Qed.
Print Assumptions C61_select_refuted.
(** The width of a port is not compared to its pins: on a port of four bits the other pins are connected to nothing, and the other way around. *)
Theorem C61_width_refuted : exists ds t, ds = [DPin "leds" 8] /\ on_board ds [("leds", Output)] = Some t
  /\ (forall k, port_bit t ".out_leds" 4 k <> Some ("leds", 7)) /\ port_bit t ".out_leds" 12 9 = None.
Proof.
  eexists _, _. split; [reflexivity|]. split; [vm_compute; reflexivity|]. split; [|reflexivity].
  intros [|[|[|[|k]]]]; cbn; discriminate.
Qed.
Print Assumptions C61_width_refuted.
(** A second declaration of a pin or of a group is accepted and has no effect. *)
Theorem C61_again_refuted : exists ds t, ds = [DPin "leds" 8; DPin "leds" 4; DPin "btn" 1; DGroup "btn" [All "leds"]]
  /\ on_board ds [("btn", Input); ("leds", Output)] = Some t /\ t_signature t = [(Input, None, "btn"); (Output, Some 7%Z, "leds")] /\ In (".in_btn", [EWhole "btn"]) (t_glue t).
Proof. eexists _, _. split; [reflexivity|]. split; [vm_compute; reflexivity|]. split; [reflexivity|left; reflexivity]. Qed.
Print Assumptions C61_again_refuted.
