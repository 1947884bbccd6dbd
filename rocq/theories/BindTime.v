(** Traces: what an instance sees and what the parent sees of it, cycle by cycle. *)
From Coq Require Import List Bool Arith ZArith Lia.
Import ListNotations.
From Verif Require Import FsmModel FsmRun BindModel BindDeps BindProofs.

(** A unit on its own: its registers after [t] cycles with the inputs [v]. *)
Fixpoint alone (u : store -> list Z -> store) (q : store) (v : nat -> list Z) (t : nat) : store :=
  match t with O => q | S t => u (alone u q v t) (v t) end.

Section Time.
  Variable ks : list inst.
  Variable body : list cmd.
  Variable pin : FsmModel.var -> bool.
  Variable f : nat -> cyc.
  Hypothesis Tr : trace ks body pin f.
  Variables (i : nat) (k : inst).
  Hypothesis Hi : nth_error ks i = Some k.

  Definition seen (t : nat) : list Z := given (y_Q (f t)) (y_E (f t)) k.
  Definition assigned (l : list FsmModel.var) (t : nat) : list Z := map (y_E (f t)) l.

  Lemma reg_next t x : pin x = false -> iswire ks x = false -> y_Q (f (S t)) x = y_E (f t) x.
  Proof. intros. now apply Tr. Qed.

  Lemma wire_comb t o y : In o (n_outs k) -> In y (out_names o) -> out_comb o = true -> y_W (f t) y = n_unit k (y_C (f t) i) (seen t) (out_var o).
  Proof. intros Io Y Co. destruct (Tr t) as ([_ S] & _). rewrite (S i k o y Hi Io Y). unfold outval. now rewrite Co. Qed.
  Lemma wire_reg t o y : In o (n_outs k) -> In y (out_names o) -> out_comb o = false -> y_W (f (S t)) y = n_unit k (y_C (f t) i) (seen t) (out_var o).
  Proof.
    intros Io Y Co. destruct (Tr (S t)) as ([_ S] & _). rewrite (S i k o y Hi Io Y). unfold outval. rewrite Co. destruct (Tr t) as (_ & _ & N). apply (N i k _ Hi).
  Qed.

  (** Inputs on the D side and on the Q side. *)
  Lemma seen_now t l : map (in_side k) (n_ins k) = map CL l -> seen t = assigned l t.
  Proof.
    unfold seen, given, assigned. intros H. rewrite <- (map_map (in_side k) (side (y_Q (f t)) (y_E (f t)))), H, map_map. apply map_ext. reflexivity.
  Qed.
  Lemma seen_late t l : map (in_side k) (n_ins k) = map CQ l -> (forall x, In x l -> pin x = false /\ iswire ks x = false) -> seen (S t) = assigned l t.
  Proof.
    unfold seen, given, assigned. intros H R. rewrite <- (map_map (in_side k) (side (y_Q (f (S t))) (y_E (f (S t))))), H, map_map. apply map_ext_in.
    intros x Hx. cbn [side]. destruct (R x Hx). now apply reg_next.
  Qed.

  (** The unit runs on what it sees. *)
  Hypothesis Ext : forall q q' vs x, (forall z, q z = q' z) -> n_unit k q vs x = n_unit k q' vs x.
  Lemma runs_alone v a : (forall t, seen (a + t) = v t) -> forall t x, y_C (f (a + t)) i x = alone (n_unit k) (y_C (f a) i) v t x.
  Proof.
    intros H t. induction t as [|t IH]; intros x; [now rewrite Nat.add_0_r|]. rewrite Nat.add_succ_r. destruct (Tr (a + t)) as (_ & _ & N). rewrite (N i k x Hi).
    fold (seen (a + t)). rewrite H. cbn [alone]. now apply Ext.
  Qed.
End Time.

(** Units made of a block only look at the values of their registers. *)
Lemma exec1_ext c : forall s s', (forall x, s x = s' x) -> forall x, exec1 c s x = exec1 c s' x.
Proof.
  induction c as [y e|e a b Fa Fb] using cmd_ind2; intros s s' H x.
  - cbn [exec1]. unfold upd. destruct (Nat.eqb x y); [apply eval_ext; intros; apply H|apply H].
  - rewrite !exec_cond. rewrite (eval_ext s s') by (intros; apply H).
    assert (E : forall l, Forall (fun c => forall s s', (forall x, s x = s' x) -> forall x, exec1 c s x = exec1 c s' x) l ->
              forall s s', (forall x, s x = s' x) -> forall x, exec l s x = exec l s' x).
    { clear. induction l as [|c l IH]; intros F s s' H x; [apply H|]. inversion F as [|c' l' F1 F2]; subst. cbn [exec]. apply IH; auto. }
    destruct (truth _); apply E; auto.
Qed.
Lemma exec_ext l : forall s s', (forall x, s x = s' x) -> forall x, exec l s x = exec l s' x.
Proof. induction l as [|c l IH]; intros s s' H x; [apply H|]. cbn [exec]. apply IH. now apply exec1_ext. Qed.
Lemma feed_ext ins : forall vs s s', (forall x, s x = s' x) -> forall x, feed ins vs s x = feed ins vs s' x.
Proof.
  induction ins as [|y ins IH]; intros vs s s' H x; [apply H|]. destruct vs as [|v vs]; [apply H|]. cbn [feed]. apply IH. intros z. unfold upd. now destruct (Nat.eqb z y).
Qed.
Lemma unit_ext ins l : forall q q' vs x, (forall z, q z = q' z) -> unit_of ins l q vs x = unit_of ins l q' vs x.
Proof. intros. unfold unit_of. apply exec_ext. now apply feed_ext. Qed.

(** One hop: from a variable of the parent to the wire of an output, through an instance computing the output from one input only. *)
Definition hop (ks : list inst) (c : conn) (y : FsmModel.var) (comb : bool) (g : Z -> Z) : Prop :=
  exists i k j p o, nth_error ks i = Some k /\ nth_error (n_ins k) j = Some p /\ In o (n_outs k) /\ In y (out_names o) /\ out_comb o = comb /\
    in_bnd p = Some c /\ forall q vs, length vs = length (n_ins k) -> n_unit k q vs (out_var o) = g (nth j vs 0%Z).

Lemma hop_now ks body pin f : trace ks body pin f -> forall x y b g, hop ks (CL x) y b g -> forall t, y_W (f (if b then t else S t)) y = g (y_E (f t) x).
Proof.
  intros Tr x y b g (i & k & j & p & o & Hi & Hj & Io & Y & Co & B & U) t.
  assert (N : nth j (seen f k t) 0%Z = y_E (f t) x).
  { unfold seen, given. apply nth_error_nth. rewrite nth_error_map, Hj. cbn [option_map]. unfold in_side. now rewrite B. }
  destruct b; [rewrite (wire_comb ks body pin f Tr i k Hi t o y Io Y Co)|rewrite (wire_reg ks body pin f Tr i k Hi t o y Io Y Co)]; rewrite U by apply map_length; now rewrite N.
Qed.
Lemma hop_late ks body pin f : trace ks body pin f -> forall x y b g, hop ks (CQ x) y b g -> pin x = false -> iswire ks x = false ->
  forall t, y_W (f (if b then S t else S (S t))) y = g (y_E (f t) x).
Proof.
  intros Tr x y b g (i & k & j & p & o & Hi & Hj & Io & Y & Co & B & U) P1 P2 t.
  assert (N : nth j (seen f k (S t)) 0%Z = y_E (f t) x).
  { unfold seen, given. apply nth_error_nth. rewrite nth_error_map, Hj. cbn [option_map]. unfold in_side. rewrite B. cbn [side]. f_equal. eapply reg_next; eauto. }
  destruct b; [rewrite (wire_comb ks body pin f Tr i k Hi (S t) o y Io Y Co)|rewrite (wire_reg ks body pin f Tr i k Hi (S t) o y Io Y Co)]; rewrite U by apply map_length; now rewrite N.
Qed.

(** Instances bound one after the other. *)
Inductive route (ks : list inst) : FsmModel.var -> FsmModel.var -> nat -> (Z -> Z) -> Prop :=
| r_one x y b g : hop ks (CL x) y b g -> route ks x y (if b then 0 else 1) g
| r_more x y z l b g h : route ks x y l g -> hop ks (CL y) z b h -> route ks x z (l + (if b then 0 else 1)) (fun v => h (g v)).

Lemma hop_wire ks c y b g : hop ks c y b g -> iswire ks y = true.
Proof.
  intros (i & k & j & p & o & Hi & _ & Io & Y & _). apply iswire_In. apply in_flat_map. exists k. split; [eapply nth_error_In; eauto|]. apply in_flat_map. eauto.
Qed.
Lemma route_time ks body pin f : trace ks body pin f -> (forall x, In x (asgs body) -> iswire ks x = false) ->
  forall x y l g, route ks x y l g -> forall t, y_W (f (l + t)) y = g (y_E (f t) x).
Proof.
  intros Tr NA x y l g R. assert (Wy : iswire ks y = true /\ forall t, y_W (f (l + t)) y = g (y_E (f t) x)); [|apply Wy].
  induction R as [x y b g H|x y z l b g h R IH H].
  - split; [eapply hop_wire; eauto|]. intros t. rewrite <- (hop_now ks body pin f Tr x y b g H). now destruct b.
  - destruct IH as [Wy IH]. split; [eapply hop_wire; eauto|]. intros t. rewrite <- IH.
    assert (EW : y_E (f (l + t)) y = y_W (f (l + t)) y).
    { destruct (Tr (l + t)) as ([E _] & _). rewrite E. rewrite exec_other; [unfold wired; now rewrite Wy|]. intros I. rewrite (NA y I) in Wy. discriminate. }
    rewrite <- EW, <- (hop_now ks body pin f Tr y z b h H (l + t)). f_equal. f_equal. destruct b; lia.
Qed.
