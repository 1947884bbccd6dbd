(** The top module: groups as declared, widths of the nets, bits of the concatenations. *)
From Coq Require Import String Ascii List Bool Arith NArith ZArith Lia.
From Verif Require Import LiteralModel LiteralProofs PinModel PinProofs ModProofs TopModel.
Import ListNotations.
Local Open Scope string_scope.

(** ** Declarations. *)
Lemma add_first_keep : forall V (m : string -> option V) k v s x, m s = Some x -> add_first m k v s = Some x.
Proof. intros V m k v s x H. unfold add_first. rewrite H. reflexivity. Qed.
Lemma add_first_other : forall V (m : string -> option V) k v s, k <> s -> add_first m k v s = m s.
Proof. intros V m k v s H. unfold add_first. destruct (m s); [reflexivity|]. apply String.eqb_neq in H. rewrite H. reflexivity. Qed.
Lemma add_first_new : forall V (m : string -> option V) k v, m k = None -> add_first m k v k = Some v.
Proof. intros V m k v H. unfold add_first. rewrite H, String.eqb_refl. reflexivity. Qed.
Lemma declare_app : forall a b f, declare f (a ++ b) = match declare f a with Some g => declare g b | None => None end.
Proof.
  induction a as [|[n w|n es] a IH]; intros b f; cbn [app declare]; [reflexivity|apply IH|].
  destruct (group_refs f es); [apply IH|reflexivity].
Qed.
Lemma declare_keep : forall ds f g, declare f ds = Some g ->
  (forall n w, pins f n = Some w -> pins g n = Some w) /\ (forall n l, groups f n = Some l -> groups g n = Some l).
Proof.
  induction ds as [|[m w|m es] ds IH]; intros f g H; cbn [declare] in H.
  - injection H as <-. auto.
  - apply IH in H. cbn [pins groups] in H. destruct H as [A B]. split; [|exact B]. intros n x E. apply A, add_first_keep, E.
  - destruct (group_refs f es); [|discriminate]. apply IH in H. cbn [pins groups] in H. destruct H as [A B]. split; [exact A|]. intros n x E. apply B, add_first_keep, E.
Qed.
Definition names_pin (n : string) (d : decl) : Prop := match d with DPin m _ => m = n | DGroup _ _ => False end.
Definition names_group (n : string) (d : decl) : Prop := match d with DGroup m _ => m = n | DPin _ _ => False end.
Lemma declare_no_pin : forall n ds f g, declare f ds = Some g -> Forall (fun d => ~ names_pin n d) ds -> pins f n = None -> pins g n = None.
Proof.
  intro n. induction ds as [|[m w|m es] ds IH]; intros f g H F E; cbn [declare] in H; [injection H as <-; exact E| |]; inversion F as [|? ? F1 F2]; subst.
  - apply (IH _ _ H F2). cbn [pins]. rewrite add_first_other; [exact E|exact F1].
  - destruct (group_refs f es); [|discriminate]. exact (IH _ _ H F2 E).
Qed.
Lemma declare_no_group : forall n ds f g, declare f ds = Some g -> Forall (fun d => ~ names_group n d) ds -> groups f n = None -> groups g n = None.
Proof.
  intro n. induction ds as [|[m w|m es] ds IH]; intros f g H F E; cbn [declare] in H; [injection H as <-; exact E| |]; inversion F as [|? ? F1 F2]; subst.
  - exact (IH _ _ H F2 E).
  - destruct (group_refs f es); [|discriminate]. apply (IH _ _ H F2). cbn [groups]. rewrite add_first_other; [exact E|exact F1].
Qed.
Lemma first_pin : forall a n w b f, declare no_pins (a ++ DPin n w :: b) = Some f -> Forall (fun d => ~ names_pin n d) a -> pins f n = Some w.
Proof.
  intros a n w b f H F. rewrite declare_app in H. destruct (declare no_pins a) as [g|] eqn:A; [|discriminate]. cbn [declare] in H.
  apply declare_keep in H. apply (proj1 H). cbn [pins]. apply add_first_new. exact (declare_no_pin _ _ _ _ A F eq_refl).
Qed.
Definition entry_ref (e : entry) : pinref := match e with Bit p b => (p, Z.of_nat b) | All p => (p, (-1)%Z) | Number _ => ("", (-1)%Z) end.
(** Bits inside of their pin. *)
Definition in_range (f : framework) (e : entry) : Prop := match e with Bit p b => forall w, pins f p = Some w -> (Z.of_nat b < w)%Z | _ => True end.
Definition declared (f : framework) (e : entry) : Prop := match e with Bit p _ | All p => exists w, pins f p = Some w | Number n => n = 0%Z end.
Lemma group_refs_map : forall f g es rs, (forall n w, pins f n = Some w -> pins g n = Some w) -> group_refs f es = Some rs -> Forall (in_range g) es ->
  rs = map entry_ref es /\ Forall (declared g) es.
Proof.
  intros f g. induction es as [|e es IH]; intros rs K H F; cbn [group_refs] in H; [injection H as <-; split; [reflexivity|constructor]|].
  inversion F as [|? ? F1 F2]; subst. destruct (entry_refs f e) as [x|] eqn:E; [|discriminate]. destruct (group_refs f es) as [y|]; [|discriminate]. injection H as <-.
  destruct (IH y K eq_refl F2) as [-> D]. destruct e as [p b|p|n]; cbn [entry_refs] in E; cbn [map entry_ref].
  - destruct (pins f p) as [w|] eqn:P; [|discriminate]. injection E as <-. pose proof (F1 _ (K _ _ P)) as L. apply Z.ltb_lt in L. rewrite L.
    split; [reflexivity|constructor; [exists w; apply K; exact P|exact D]].
  - destruct (pins f p) as [w|] eqn:P; [|discriminate]. injection E as <-. split; [reflexivity|constructor; [exists w; apply K; exact P|exact D]].
  - destruct (n =? 0)%Z eqn:Z; [|discriminate]. injection E as <-. apply Z.eqb_eq in Z. split; [reflexivity|constructor; [exact Z|exact D]].
Qed.
Lemma first_group : forall a n es b f, declare no_pins (a ++ DGroup n es :: b) = Some f -> Forall (fun d => ~ names_group n d) a ->
  Forall (fun d => ~ names_pin n d) (a ++ b) -> Forall (in_range f) es ->
  pinsUsedByIOPort f n = Some (map entry_ref es) /\ Forall (declared f) es.
Proof.
  intros a n es b f H G P R. pose proof H as H0. rewrite declare_app in H. destruct (declare no_pins a) as [g|] eqn:A; [|discriminate]. cbn [declare] in H.
  destruct (group_refs g es) as [rs|] eqn:E; [|discriminate]. pose proof (declare_keep _ _ _ H) as [KP KG]. cbn [pins groups] in KP, KG.
  destruct (group_refs_map g f es rs KP E R) as [-> D]. split; [|exact D]. apply Forall_app in P. destruct P as [P1 P2].
  unfold pinsUsedByIOPort. rewrite (declare_no_pin _ _ _ _ H P2 (declare_no_pin _ _ _ _ A P1 eq_refl)).
  apply KG, add_first_new. exact (declare_no_group _ _ _ _ A G eq_refl).
Qed.

(** ** Widths. *)
Definition range_of (w : Z) : option Z := if (1 <? w)%Z then Some (w - 1)%Z else None.
Definition bits_of (w : Z) : nat := Z.to_nat (Z.max 1 w).
Lemma signatures_names : forall f u s, signatures f u = Some s -> map (fun x => snd x) s = map fst u.
Proof.
  intro f. induction u as [|e u IH]; intros s H; cbn [signatures] in H; [injection H as <-; reflexivity|].
  unfold signature_of in H. destruct (pins f (fst e)); [|discriminate]. destruct (signatures f u) as [y|]; [|discriminate]. injection H as <-. cbn [map snd]. rewrite (IH y eq_refl). reflexivity.
Qed.
Lemma signatures_find : forall f u s p, signatures f u = Some s -> In p (map fst u) ->
  exists d w, pins f p = Some w /\ In (p, d) u /\ find (fun x => String.eqb (snd x) p) s = Some (d, range_of w, p).
Proof.
  intros f u. induction u as [|[q d] u IH]; intros s p H I; cbn [signatures] in H; [destruct I|].
  unfold signature_of in H. cbn [fst snd] in H. destruct (pins f q) as [w|] eqn:P; [|discriminate]. destruct (signatures f u) as [y|] eqn:E; [|discriminate]. injection H as <-. cbn [find snd].
  destruct (String.eqb q p) eqn:Q.
  - apply String.eqb_eq in Q. subst q. exists d, w. split; [exact P|]. split; [left; reflexivity|reflexivity].
  - apply String.eqb_neq in Q. destruct I as [I|I]; [cbn in I; congruence|]. destruct (IH y p eq_refl I) as (d' & w' & A & B & C). exists d', w'. split; [exact A|]. split; [right; exact B|exact C].
Qed.
Lemma make_top_parts : forall f ps t, make_top f ps = Some t -> exists u, add_ports f ps [] = Some u /\ signatures f u = Some (t_signature t)
  /\ t_wires t = flat_map (fun e => unused (fst e) 0 (match pinsUsedByIOPort f (fst e) with Some l => l | None => [] end)) ps
  /\ t_glue t = map (fun e => (glue_prefix (snd e) ++ fst e, elements (fst e) 0 (match pinsUsedByIOPort f (fst e) with Some l => l | None => [] end))) ps.
Proof.
  intros f ps t H. unfold make_top in H. destruct (add_ports f ps []) as [u|]; [|discriminate]. destruct (signatures f u) as [s|] eqn:S; [|discriminate]. injection H as <-.
  exists u. split; [reflexivity|]. split; [exact S|]. split; reflexivity.
Qed.
Lemma ref_used : forall f ps t p d l r, make_top f ps = Some t -> In (p, d) ps -> pinsUsedByIOPort f p = Some l -> In r l -> fst r <> "" ->
  exists u, signatures f u = Some (t_signature t) /\ In (fst r) (map fst u).
Proof.
  intros f ps t p d l r H I P R N. destruct (make_top_parts _ _ _ H) as (u & A & S & _). exists u. split; [exact S|].
  apply (proj1 (add_ports_spec _ _ _ _ A)). right. apply in_map_iff. exists (p, d, r). split; [reflexivity|]. unfold connections. apply in_flat_map. exists (p, d). split; [exact I|].
  cbn [fst snd]. rewrite P. apply in_map_iff. exists r. split; [reflexivity|]. apply filter_In. split; [exact R|]. apply String.eqb_neq in N. rewrite N. reflexivity.
Qed.
Lemma used_width : forall f u t p, signatures f u = Some (t_signature t) -> In p (map fst u) -> exists w, pins f p = Some w /\ net_width t p = bits_of w.
Proof.
  intros f u t p S I. destruct (signatures_find _ _ _ _ S I) as (d & w & P & _ & F). exists w. split; [exact P|]. unfold net_width. rewrite F. unfold range_of, bits_of.
  destruct (1 <? w)%Z eqn:E; [apply Z.ltb_lt in E|apply Z.ltb_ge in E].
  - f_equal. lia.
  - rewrite Z.max_l by lia. reflexivity.
Qed.

(** ** Bits of the concatenation. *)
Definition ref_width (f : framework) (r : pinref) : nat :=
  if String.eqb (fst r) "" then 1 else if (snd r =? -1)%Z then match pins f (fst r) with Some w => bits_of w | None => 1 end else 1.
Definition ref_bit (port : string) (k : nat) (r : pinref) (i : nat) : string * nat :=
  if String.eqb (fst r) "" then ("__unused_" ++ port ++ "_" ++ to_string (N.of_nat k), 0) else if (snd r =? -1)%Z then (fst r, i) else (fst r, Z.to_nat (snd r)).
Fixpoint total (l : list nat) : nat := match l with [] => 0 | x :: r => x + total r end.
Lemma elements_app : forall port a b k, elements port k (a ++ b) = (elements port k a ++ elements port (k + length a) b)%list.
Proof.
  intro port. induction a as [|[p z] a IH]; intros b k; cbn [app elements length]; [rewrite Nat.add_0_r; reflexivity|]. rewrite IH. rewrite <- plus_n_Sm. reflexivity.
Qed.
Definition widths_ok (f : framework) (t : top) (r : pinref) : Prop := fst r <> "" -> exists w, pins f (fst r) = Some w /\ net_width t (fst r) = bits_of w.
Definition element_of (port : string) (k : nat) (r : pinref) : element :=
  if String.eqb (fst r) "" then EUnused port k else if (snd r =? -1)%Z then EWhole (fst r) else ESelect (fst r) (snd r).
Lemma elements_cons : forall port k r l, elements port k (r :: l) = element_of port k r :: elements port (S k) l.
Proof. intros port k [p z] l. reflexivity. Qed.
Lemma element_len : forall f t port k r, widths_ok f t r -> length (element_bits t (element_of port k r)) = ref_width f r.
Proof.
  intros f t port k r W. unfold element_of, ref_width. destruct (String.eqb (fst r) "") eqn:E; [reflexivity|]. apply String.eqb_neq in E.
  destruct (snd r =? -1)%Z; [|reflexivity]. destruct (W E) as (w & P & N). cbn [element_bits]. rewrite rev_length, map_length, seq_length, P. exact N.
Qed.
Lemma elements_len : forall f t port l k, Forall (widths_ok f t) l -> length (flat_map (element_bits t) (elements port k l)) = total (map (ref_width f) l).
Proof.
  intros f t port. induction l as [|r l IH]; intros k F; [reflexivity|]. inversion F as [|? ? F1 F2]; subst. rewrite elements_cons. cbn [flat_map map total].
  rewrite app_length, (element_len f), IH; auto.
Qed.
Lemma nth_seq : forall n s i, i < n -> nth_error (seq s n) i = Some (s + i).
Proof. induction n as [|n IH]; intros s i H; [lia|]. destruct i as [|i]; cbn [seq nth_error]; [f_equal; lia|]. rewrite IH by lia. f_equal. lia. Qed.
Lemma element_bit : forall f t port k r i, widths_ok f t r -> i < ref_width f r -> nth_error (rev (element_bits t (element_of port k r))) i = Some (ref_bit port k r i).
Proof.
  intros f t port k r i W. unfold element_of, ref_width, ref_bit. destruct (String.eqb (fst r) "") eqn:E.
  - intro L. assert (i = 0) as -> by lia. reflexivity.
  - apply String.eqb_neq in E. destruct (snd r =? -1)%Z.
    + destruct (W E) as (w & P & N). rewrite P. intro L. cbn [element_bits]. rewrite rev_involutive. rewrite nth_error_map, nth_seq; [reflexivity|rewrite N; exact L].
    + intro L. assert (i = 0) as -> by lia. reflexivity.
Qed.
Lemma concat_bit : forall f t port a r b i, Forall (widths_ok f t) (a ++ r :: b) -> i < ref_width f r ->
  nth_error (rev (flat_map (element_bits t) (elements port 0 (a ++ r :: b)))) (total (map (ref_width f) b) + i) = Some (ref_bit port (length a) r i).
Proof.
  intros f t port a r b i F L. apply Forall_app in F. destruct F as [_ F]. inversion F as [|? ? F1 F2]; subst.
  rewrite elements_app, elements_cons, flat_map_app. cbn [flat_map]. rewrite !rev_app_distr, <- app_assoc.
  pose proof (elements_len f t port b (S (0 + length a)) F2) as LB.
  rewrite nth_error_app2 by (rewrite rev_length, LB; lia). rewrite rev_length, LB.
  replace (total (map (ref_width f) b) + i - total (map (ref_width f) b)) with i by lia.
  rewrite nth_error_app1 by (rewrite rev_length, (element_len f) by exact F1; exact L).
  cbn [Nat.add]. apply (element_bit f); assumption.
Qed.
Lemma concat_above : forall f t port l k, Forall (widths_ok f t) l -> total (map (ref_width f) l) <= k -> nth_error (rev (flat_map (element_bits t) (elements port 0 l))) k = None.
Proof. intros f t port l k F L. apply nth_error_None. rewrite rev_length, (elements_len f); assumption. Qed.

(** ** The cell of a port. *)
Lemma prefix_inj : forall d p e q, glue_prefix d ++ p = glue_prefix e ++ q -> d = e /\ p = q.
Proof. intros [] p [] q H; cbn in H; try discriminate; injection H as ->; split; reflexivity. Qed.
Lemma glue_find : forall f ps p d, In (p, d) ps ->
  find (fun x : string * list element => String.eqb (fst x) (glue_prefix d ++ p))
    (map (fun e => (glue_prefix (snd e) ++ fst e, elements (fst e) 0 (match pinsUsedByIOPort f (fst e) with Some l => l | None => [] end))) ps)
  = Some (glue_prefix d ++ p, elements p 0 (match pinsUsedByIOPort f p with Some l => l | None => [] end)).
Proof.
  intros f ps p d. induction ps as [|[q e] ps IH]; intro I; [destruct I|]. cbn [map find fst snd].
  destruct (String.eqb (glue_prefix e ++ q) (glue_prefix d ++ p)) eqn:E.
  - apply String.eqb_eq in E. apply prefix_inj in E. destruct E as [-> ->]. reflexivity.
  - destruct I as [I|I]; [injection I as -> ->; rewrite String.eqb_refl in E; discriminate|exact (IH I)].
Qed.
Lemma port_refs : forall f ps t p d l W k, make_top f ps = Some t -> In (p, d) ps -> pinsUsedByIOPort f p = Some l ->
  port_bit t (glue_prefix d ++ p) W k = (if (k <? W)%nat then nth_error (rev (flat_map (element_bits t) (elements p 0 l))) k else None) /\ Forall (widths_ok f t) l.
Proof.
  intros f ps t p d l W k H I P. split.
  - destruct (make_top_parts _ _ _ H) as (u & _ & _ & _ & G). unfold port_bit. rewrite G, (glue_find f ps p d I), P. reflexivity.
  - apply Forall_forall. intros r R N. destruct (ref_used _ _ _ _ _ _ _ H I P R N) as (u & S & U). exact (used_width _ _ _ _ S U).
Qed.

(** ** Names of the wires. *)
Lemma parts_digits : forall s, all_chars digitb s = true -> parts s = [s].
Proof.
  induction s as [|c s IH]; intro H; [reflexivity|]. cbn [all_chars] in H. apply andb_true_iff in H. destruct H as [A B]. cbn [parts]. rewrite (IH B).
  destruct (Ascii.eqb c "_") eqn:E; [apply Ascii.eqb_eq in E; subst c; discriminate A|reflexivity].
Qed.
Definition unused_wire (p : string) (k : nat) : string := "__unused_" ++ p ++ "_" ++ to_string (N.of_nat k).
Lemma unused_wire_inj : forall p k q j, unused_wire p k = unused_wire q j -> p = q /\ k = j.
Proof.
  intros p k q j H. unfold unused_wire in H.
  assert (C : forall x y, "__unused_" ++ x = "__unused_" ++ y -> x = y) by (intros x y E; cbn in E; injection E as E; exact E). apply C in H. apply (f_equal parts) in H. rewrite !parts_app in H. rewrite !(parts_digits _ (to_string_digits _)) in H.
  apply app_inj_tail in H. destruct H as [A B]. split; [exact (parts_inj _ _ A)|]. apply (f_equal (dec_value 0)) in B. rewrite !to_string_value in B. lia.
Qed.
Lemma unused_in : forall p l k x, In x (unused p k l) -> exists j, k <= j /\ x = unused_wire p j.
Proof.
  intros p. induction l as [|[q z] l IH]; intros k x I; cbn [unused] in I; [destruct I|]. apply in_app_or in I. destruct I as [I|I].
  - destruct (String.eqb q ""); [|destruct I]. destruct I as [<-|[]]. exists k. split; [lia|reflexivity].
  - destruct (IH _ _ I) as (j & L & E). exists j. split; [lia|exact E].
Qed.
Lemma unused_nodup : forall p l k, NoDup (unused p k l).
Proof.
  intros p. induction l as [|[q z] l IH]; intro k; cbn [unused]; [constructor|]. destruct (String.eqb q ""); cbn [app]; [|apply IH].
  constructor; [|apply IH]. intro I. destruct (unused_in _ _ _ _ I) as (j & L & E). apply (unused_wire_inj p k p j) in E. lia.
Qed.
Lemma nodup_app : forall (A : Type) (a b : list A), NoDup a -> NoDup b -> (forall x, In x a -> ~ In x b) -> NoDup (a ++ b).
Proof.
  induction a as [|x a IH]; intros b Ha Hb D; cbn [app]; [exact Hb|]. inversion Ha as [|? ? N Ha']; subst. constructor.
  - intro I. apply in_app_or in I. destruct I as [I|I]; [exact (N I)|exact (D x (or_introl eq_refl) I)].
  - apply IH; [exact Ha'|exact Hb|]. intros y I. apply D. right. exact I.
Qed.
Lemma wires_nodup : forall (refs : string -> list pinref) ps, NoDup (map fst ps) -> NoDup (flat_map (fun e : string * ptype => unused (fst e) 0 (refs (fst e))) ps).
Proof.
  intro refs. induction ps as [|[p d] ps IH]; intro H; cbn [flat_map fst]; [constructor|]. inversion H as [|? ? N H']; subst. apply nodup_app; [apply unused_nodup|exact (IH H')|].
  intros x I J. destruct (unused_in _ _ _ _ I) as (k & _ & ->). apply in_flat_map in J. destruct J as ([q e] & Q & J). cbn [fst] in J. destruct (unused_in _ _ _ _ J) as (j & _ & E).
  apply unused_wire_inj in E. destruct E as [-> _]. apply N. exact (in_map fst _ _ Q).
Qed.
Lemma unused_elements : forall p l k e, In e (elements p k l) -> (exists j, e = EUnused p j /\ In (unused_wire p j) (unused p k l)) \/ (exists r, In r l /\ fst r <> "" /\ element_net e = fst r /\ (forall q j, e <> EUnused q j)).
Proof.
  intros p. induction l as [|r l IH]; intros k e I; [destruct I|]. rewrite elements_cons in I. destruct r as [q z]. cbn [unused]. destruct I as [I|I].
  - unfold element_of in I. cbn [fst snd] in I. destruct (String.eqb q "") eqn:E.
    + left. exists k. split; [symmetry; exact I|]. left. reflexivity.
    + apply String.eqb_neq in E. right. exists (q, z). split; [left; reflexivity|]. split; [exact E|]. subst e. destruct (z =? -1)%Z; split; try reflexivity; intros; discriminate.
  - destruct (IH _ _ I) as [(j & A & B)|(r & A & B)].
    + left. exists j. split; [exact A|]. apply in_or_app. right. exact B.
    + right. exists r. split; [right; exact A|exact B].
Qed.
Lemma used_nodup : forall f ps u u', add_ports f ps u = Some u' -> NoDup (map fst u) -> NoDup (map fst u').
Proof.
  assert (K : forall l u t u', add_pins u t l = Some u' -> NoDup (map fst u) -> NoDup (map fst u')).
  { induction l as [|[p z] l IH]; intros u t u' H N; cbn [add_pins] in H; [injection H as <-; exact N|]. destruct (String.eqb p ""); [exact (IH _ _ _ H N)|].
    destruct ((z =? -1)%Z && is_used u p); [discriminate|]. apply (IH _ _ _ H). unfold insert_used. destruct (is_used u p) eqn:E; [exact N|]. rewrite map_app. apply nodup_app; [exact N|cbn; constructor; [intros []|constructor]|].
    intros x I [<-|[]]. apply is_used_In in I. cbn [fst] in I. congruence. }
  intro f. induction ps as [|[p d] ps IH]; intros u u' H N; cbn [add_ports] in H; [injection H as <-; exact N|].
  destruct (addTopModulePort f p d u) as [v|] eqn:E; [|discriminate]. apply add_port_pins in E. destruct E as (l & _ & E). exact (IH _ _ H (K _ _ _ _ E N)).
Qed.
