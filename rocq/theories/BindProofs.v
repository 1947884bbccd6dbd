(** An accepted unit settles in exactly one way in every cycle. *)
From Coq Require Import List Bool Arith ZArith Lia.
Import ListNotations.
From Verif Require Import FsmModel FsmRun DepModel DepProofs TrackDeps BindModel BindDeps.

Lemma walk_ext s s' l : (forall y, In y (tsts l) -> s y = s' y) -> forall p, walk s l p = walk s' l p.
Proof.
  assert (A : forall c, (forall y, In y (tst c) -> s y = s' y) -> forall p, walk1 s c p = walk1 s' c p).
  { intros c. induction c as [x e|e a b Fa Fb] using cmd_ind2; intros H p; [reflexivity|]. rewrite !walk_cond. cbn [tst] in H.
    rewrite (eval_ext s s') by (intros y Hy; apply H; apply in_or_app; now left).
    assert (E : forall l, Forall (fun c => (forall y, In y (tst c) -> s y = s' y) -> forall p, walk1 s c p = walk1 s' c p) l ->
              (forall y, In y (flat_map tst l) -> s y = s' y) -> forall p, walk s l p = walk s' l p).
    { induction l0 as [|c l0 IH]; intros F T q; [reflexivity|]. inversion F as [|c' l' F1 F2]; subst. cbn [walk flat_map] in *.
      rewrite F1 by (intros y Hy; apply T; apply in_or_app; now left). apply IH; auto. intros y Hy. apply T. apply in_or_app. now right. }
    destruct (truth _); apply E; auto; intros y Hy; apply H; apply in_or_app; right; apply in_or_app; [now left|now right]. }
  unfold tsts. induction l as [|c l IH]; intros H p; [reflexivity|]. cbn [walk flat_map] in *.
  rewrite A by (intros y Hy; apply H; apply in_or_app; now left). apply IH. intros y Hy. apply H. apply in_or_app. now right.
Qed.

(** The output of a wire. *)
Definition has (x : var) (o : outp) : bool := existsb (Nat.eqb x) (out_names o).
Fixpoint locate (l : list inst) (i : nat) (x : var) : option (nat * inst * outp) :=
  match l with
  | [] => None
  | k :: r => match find (has x) (n_outs k) with Some o => Some (i, k, o) | None => locate r (S i) x end
  end.
Lemma has_In x o : has x o = true <-> In x (out_names o).
Proof. unfold has. rewrite existsb_exists. split; [intros (y & I & E); apply Nat.eqb_eq in E; now subst|intros I; exists x; split; [exact I|apply Nat.eqb_refl]]. Qed.
Lemma locate_some l : forall i x j k o, locate l i x = Some (j, k, o) -> nth_error l (j - i) = Some k /\ i <= j /\ In o (n_outs k) /\ In x (out_names o).
Proof.
  induction l as [|k l IH]; intros i x j k' o H; [discriminate|]. cbn [locate] in H. destruct (find (has x) (n_outs k)) as [o'|] eqn:E.
  - injection H as <- <- <-. rewrite Nat.sub_diag. apply find_some in E. destruct E as [E1 E2]. apply has_In in E2. auto.
  - apply IH in H. destruct H as (H1 & H2 & H3). replace (j - i) with (S (j - S i)) by lia. split; [exact H1|]. split; [lia|exact H3].
Qed.
Lemma locate_none l : forall i x, locate l i x = None -> ~ In x (wires l).
Proof.
  induction l as [|k l IH]; intros i x H I; [destruct I|]. cbn [locate] in H. destruct (find (has x) (n_outs k)) as [o|] eqn:E; [discriminate|].
  unfold wires in I. cbn [flat_map] in I. apply in_app_or in I. destruct I as [I|I]; [|eapply IH; eauto].
  apply in_flat_map in I. destruct I as (o & Io & X). apply has_In in X. rewrite (find_none _ _ E o Io) in X. discriminate.
Qed.

Section Settle.
  Variable ks : list inst.
  Variable body : list cmd.
  Variable n : nat.
  Variable pin : var -> bool.
  Hypothesis Dist : NoDup (wires ks).
  Hypothesis Chk : forall k o, In k ks -> In o (n_outs k) -> out_nocheck o = false.
  Hypothesis RangeI : forall k p, In k ks -> In p (n_ins k) -> in_own p < n /\ match in_bnd p with Some (CL x) | Some (CQ x) => x < n | None => True end.
  Hypothesis RangeW : forall x, In x (wires ks) -> x < n.
  Hypothesis RangeB : ranges n body.
  Hypothesis Sep : separates [] body = true.
  Hypothesis Acc : accepted ks body pin n = true.
  Hypothesis Quiet : forall y, In y (tsts body) -> ~ In y (asgs body) /\ ~ key ks y.
  (** Instances that are not searched have no combinational path. *)
  Hypothesis Skip : forall k, In k ks -> skipped k = true ->
    (forall o, In o (n_outs k) -> out_comb o = false) \/ (forall p x, In p (n_ins k) -> in_bnd p = Some (CL x) -> ~ In x (asgs body) /\ iswire ks x = false).

  Variable Q : store.
  Variable C : nat -> store.

  Definition next (W : store) : store := fun x =>
    match locate ks 0 x with Some (i, k, o) => outval Q C (exec body (wired ks Q W)) i k o | None => 0%Z end.

  Lemma located x i k o : nth_error ks i = Some k -> In o (n_outs k) -> In x (out_names o) -> locate ks 0 x = Some (i, k, o).
  Proof.
    intros Hi Io X. destruct (locate ks 0 x) as [[[j k'] o']|] eqn:E.
    - apply locate_some in E. destruct E as (E1 & _ & E3 & E4). rewrite Nat.sub_0_r in E1.
      assert (i = j). { eapply (nodup_flat wires_of ks Dist); [exact Hi|exact E1| |]; apply in_flat_map; eauto. }
      subst j. destruct (same_out ks Dist k o k' o' x) as [-> ->]; eauto using nth_error_In.
    - exfalso. apply (locate_none _ _ _ E). apply in_flat_map. exists k. split; [eapply nth_error_In; eauto|]. apply in_flat_map. eauto.
  Qed.

  Lemma outval_ext E E' i k o : (forall x, E x = E' x) -> outval Q C E i k o = outval Q C E' i k o.
  Proof.
    intros H. unfold outval. destruct (out_comb o); [|reflexivity]. f_equal. unfold given. apply map_ext. intros p. unfold side. destruct (in_side k p); auto.
  Qed.

  Lemma settled_next W E : settled ks body Q C W E <-> (forall x, E x = exec body (wired ks Q W) x) /\ (forall x, iswire ks x = true -> W x = next W x).
  Proof.
    unfold settled. split; intros [H1 H2]; (split; [exact H1|]).
    - intros x Hx. apply iswire_In in Hx. unfold wires in Hx. apply in_flat_map in Hx. destruct Hx as (k & Ik & Hx). apply in_flat_map in Hx. destruct Hx as (o & Io & Hx).
      apply In_nth_error in Ik. destruct Ik as [i Hi]. unfold next. rewrite (located x i k o Hi Io Hx). rewrite (H2 i k o x Hi Io Hx). now apply outval_ext.
    - intros i k o x Hi Io Hx. assert (Wx : iswire ks x = true).
      { apply iswire_In. apply in_flat_map. exists k. split; [eapply nth_error_In; eauto|]. apply in_flat_map. eauto. }
      rewrite (H2 x Wx). unfold next. rewrite (located x i k o Hi Io Hx). symmetry. now apply outval_ext.
  Qed.

  Definition keyb (x : var) : bool := existsb (fun k => negb (skipped k) && mem x (comb_outs k)) ks.
  Lemma keyb_spec x : keyb x = true <-> key ks x.
  Proof.
    unfold keyb, key, driver. rewrite existsb_exists. split.
    - intros (k & I & H). apply andb_prop in H. destruct H as [H1 H2]. apply mem_In in H2. apply negb_true_iff in H1. eauto.
    - intros (k & I & H1 & H2). exists k. split; [exact I|]. apply mem_In in H2. now rewrite H1, H2.
  Qed.

  (** Other wires do not depend on the wires. *)
  Lemma next_free W W' x : iswire ks x = true -> ~ key ks x -> next W x = next W' x.
  Proof.
    intros Wx N. unfold next. destruct (locate ks 0 x) as [[[i k] o]|] eqn:L; [|reflexivity]. apply locate_some in L. destruct L as (Hi & _ & Io & X). rewrite Nat.sub_0_r in Hi.
    pose proof (nth_error_In _ _ Hi) as Ik. unfold outval. destruct (out_comb o) eqn:Co; [|reflexivity].
    assert (Sk : skipped k = true).
    { apply not_false_iff_true. intros S. apply N. exists k. split; [exact Ik|]. split; [exact S|]. apply comb_outs_spec. exists o. split; [exact Io|]. split; [|exact X].
      unfold checked. now rewrite Co, (Chk k o Ik Io). }
    destruct (Skip k Ik Sk) as [A|A]; [rewrite (A o Io) in Co; discriminate|]. f_equal. unfold given. apply map_ext_in. intros p Ip. unfold side, in_side.
    destruct (in_bnd p) as [[y|y]|] eqn:B; [|reflexivity|].
    - destruct (A p y Ip B) as [A1 A2]. rewrite !exec_other by exact A1. unfold wired. now rewrite A2.
    - unfold skipped in Sk. destruct (n_call k), (n_reg k); try discriminate Sk; reflexivity.
  Qed.

  Definition nk (W W' : store) : Prop := forall x, iswire ks x = true -> ~ key ks x -> W x = W' x.
  Lemma tests_same W W' : nk W W' -> forall y, In y (tsts body) -> wired ks Q W y = wired ks Q W' y.
  Proof. intros H y Hy. destruct (Quiet y Hy) as [_ K]. unfold wired. destruct (iswire ks y) eqn:E; [now apply H|reflexivity]. Qed.

  Lemma next_key W W' o : nk W W' -> key ks o -> (forall o', link ks (walk (wired ks Q W) body []) o o' -> W o' = W' o') -> next W o = next W' o.
  Proof.
    intros HN Ko HL. unfold next. destruct (locate ks 0 o) as [[[i k] u]|] eqn:L; [|reflexivity]. apply locate_some in L. destruct L as (Hi & _ & Iu & X). rewrite Nat.sub_0_r in Hi.
    pose proof (nth_error_In _ _ Hi) as Ik. unfold outval. destruct (out_comb u) eqn:Cu; [|reflexivity]. f_equal. unfold given. apply map_ext_in. intros p Ip.
    assert (D : driver ks k o).
    { destruct Ko as (k' & Ik' & Sk' & Ho). pose proof Ho as Ho'. apply comb_outs_spec in Ho'. destruct Ho' as (u' & Iu' & _ & X').
      destruct (same_out ks Dist k u k' u' o) as [-> _]; auto. split; auto. }
    assert (EX : forall x, In x (comb_ins k) -> exec body (wired ks Q W) x = exec body (wired ks Q W') x).
    { intros x Hx. set (p0 := walk (wired ks Q W) body []) in *.
      rewrite (exec_walk (wired ks Q W) body [] (wired ks Q W) (wired ks Q W)), (exec_walk (wired ks Q W) body [] (wired ks Q W') (wired ks Q W')).
      2-5: try reflexivity.
      2:{ intros y Hy. split; [symmetry; now apply tests_same|now apply Quiet]. }
      2:{ intros y Hy. split; [reflexivity|now apply Quiet]. }
      fold p0. apply play_srcs. intros y Hy. unfold wired. destruct (iswire ks y) eqn:Wy; [|reflexivity]. destruct (keyb y) eqn:Ky.
      - apply keyb_spec in Ky. apply HL. exists k, x. auto.
      - apply HN; [exact Wy|]. rewrite <- keyb_spec, Ky. discriminate. }
    unfold side. destruct (in_side k p) as [x|x] eqn:S; [|reflexivity]. apply EX. unfold in_side in S. unfold comb_ins. apply in_or_app.
    destruct (in_bnd p) as [c|] eqn:B.
    - subst c. left. apply in_flat_map. exists p. split; [exact Ip|]. rewrite B. now left.
    - right. destruct (negb (n_call k) && negb (n_reg k)); [|discriminate]. injection S as <-. now apply in_map.
  Qed.

  Fixpoint iter (m : nat) (W : store) : store := match m with O => W | S m => next (iter m W) end.
  Lemma iter_next m W : iter m (next W) = next (iter m W).
  Proof. induction m as [|m IH]; [reflexivity|]. cbn [iter]. now rewrite IH. Qed.

  (** Sequences of linked wires. *)
  Fixpoint linked (p : list (var * expr)) (l : list var) : Prop := match l with a :: ((b :: _) as r) => link ks p a b /\ linked p r | _ => True end.
  Lemma linked_app p l : forall a r, linked p (l ++ a :: r) -> linked p (a :: r).
  Proof.
    induction l as [|x l IH]; intros a r H; [exact H|]. apply IH. cbn [app linked] in H. destruct (l ++ a :: r); [exact I|apply H].
  Qed.
  Lemma linked_chain p l : forall a b r, linked p (a :: l ++ b :: r) -> chain ks p a b.
  Proof.
    induction l as [|x l IH]; intros a b r H; cbn [app] in H; destruct H as [H1 H2]; [now apply ch1|]. eapply chS; [exact H1|]. eapply IH. exact H2.
  Qed.
  Lemma linked_short p l : acyclic ks p -> (forall x, In x l -> x < n) -> linked p l -> length l <= n.
  Proof.
    intros AC R H. assert (ND : NoDup l).
    { clear R. induction l as [|a l IH]; [constructor|]. constructor; [|apply IH; cbn [linked] in H; destruct l; [exact I|apply H]].
      intros J. apply in_split in J. destruct J as (l1 & l2 & ->). apply (AC a). eapply linked_chain. exact H. }
    pose proof (NoDup_incl_length ND (l' := seq 0 n)) as L. rewrite seq_length in L. apply L. intros x Hx. apply in_seq. specialize (R x Hx). lia.
  Qed.

  Lemma settle_iter W W' : nk W W' -> (forall x, iswire ks x = true -> ~ key ks x -> W x = next W x) ->
    forall m o, key ks o -> iter m W o = iter m W' o \/ exists l, length l = m /\ linked (walk (wired ks Q W) body []) (o :: l) /\ forall x, In x (o :: l) -> key ks x.
  Proof.
    intros HN FX. set (p := walk (wired ks Q W) body []).
    assert (NI : forall m, nk W (iter m W)).
    { induction m as [|m IH]; intros x Wx Nx; [reflexivity|]. cbn [iter]. rewrite FX by assumption. now apply next_free. }
    assert (NJ : forall m, nk (iter m W) (iter m W')).
    { destruct m as [|m]; intros x Wx Nx; [now apply HN|]. cbn [iter]. now apply next_free. }
    assert (PE : forall m, walk (wired ks Q (iter m W)) body [] = p).
    { intros m. unfold p. apply walk_ext. intros y Hy. symmetry. now apply tests_same. }
    induction m as [|m IH]; intros o Ko.
    - right. exists []. split; [reflexivity|]. split; [exact I|]. intros x [<-|[]]. exact Ko.
    - (* the wires [o] is linked to: those of [srcs p x] for the inputs x *)
      set (succ := flat_map (fun k => if mem o (comb_outs k) && negb (skipped k) then filter keyb (flat_map (srcs p) (comb_ins k)) else []) ks).
      assert (SU : forall o', In o' succ <-> link ks p o o').
      { intros o'. unfold succ, link, driver. rewrite in_flat_map. split.
        - intros (k & Ik & H). destruct (mem o (comb_outs k) && negb (skipped k)) eqn:E; [|destruct H]. apply andb_prop in E. destruct E as [E1 E2]. apply mem_In in E1. apply negb_true_iff in E2.
          apply filter_In in H. destruct H as [H1 H2]. apply in_flat_map in H1. destruct H1 as (x & X1 & X2). apply keyb_spec in H2. exists k, x. auto.
        - intros (k & x & (Ik & Sk & Ho) & X1 & X2 & Ko'). exists k. split; [exact Ik|]. apply mem_In in Ho. rewrite Ho, Sk. cbn [negb andb].
          apply filter_In. split; [apply in_flat_map; eauto|now apply keyb_spec]. }
      assert (CH : (forall o', In o' succ -> iter m W o' = iter m W' o') \/ exists o', In o' succ /\ exists l, length l = m /\ linked p (o' :: l) /\ forall x, In x (o' :: l) -> key ks x).
      { assert (KS : forall o', In o' succ -> key ks o') by (intros o' H; apply SU in H; destruct H as (k & x & _ & _ & _ & K); exact K). clear SU.
        induction succ as [|a l IHl]; [left; intros o' []|]. destruct (IH a (KS a (or_introl eq_refl))) as [E|E]; [|right; exists a; split; [now left|exact E]].
        destruct IHl as [E'|(o' & I' & E')]; [intros o' H; apply KS; now right| |]; [left; intros o' [<-|H]; auto|right; exists o'; split; [now right|exact E']]. }
      destruct CH as [CH|(o' & Io' & l & L1 & L2 & L3)].
      + left. cbn [iter]. apply next_key; [apply NJ|exact Ko|]. intros o' H. rewrite PE in H. apply CH. now apply SU.
      + right. exists (o' :: l). split; [cbn [length]; now f_equal|]. split; [split; [now apply SU|exact L2]|]. intros x [<-|H]; [exact Ko|now apply L3].
  Qed.

  Definition Wn : store := next (fun _ => 0%Z).
  Lemma next_same W W' : (forall x, iswire ks x = true -> W x = W' x) -> forall x, iswire ks x = true -> next W x = next W' x.
  Proof.
    intros H x Wx. destruct (keyb x) eqn:K.
    - apply keyb_spec in K. apply next_key; [intros y Wy _; now apply H|exact K|]. intros o' (k & y & _ & _ & _ & K'). apply H. apply iswire_In. eapply key_wire; eauto.
    - apply next_free; [exact Wx|]. rewrite <- keyb_spec, K. discriminate.
  Qed.

  (** Exactly one way. *)
  Lemma settles : exists W E, settled ks body Q C W E /\ forall W' E', settled ks body Q C W' E' -> (forall x, iswire ks x = true -> W' x = W x) /\ forall x, E' x = E x.
  Proof.
    pose proof Acc as A. unfold accepted in A. apply andb_prop in A. destruct A as [LO A]. destruct (insts_deps ks n ks no_deps) as [d|] eqn:E1; [|discriminate].
    destruct (cmds_deps ks n body d) as [d1|] eqn:E2; [|discriminate].
    assert (AC : forall s, acyclic ks (walk s body [])) by (intros s; eapply accepted_acyclic; eauto).
    assert (FX : forall x, iswire ks x = true -> ~ key ks x -> Wn x = next Wn x) by (intros; unfold Wn at 1; now apply next_free).
    assert (ST : forall W', nk Wn W' -> forall x, iswire ks x = true -> iter (S n) Wn x = iter (S n) W' x).
    { intros W' HN x Wx. destruct (keyb x) eqn:K.
      - apply keyb_spec in K. destruct (settle_iter Wn W' HN FX (S n) x K) as [J|(l & L1 & L2 & L3)]; [exact J|exfalso].
        apply linked_short in L2; [cbn [length] in L2; unfold BindDeps.var, FsmModel.var, DepModel.var in *; lia|apply AC|]. intros y Hy. apply RangeW. eapply key_wire; eauto.
      - cbn [iter]. apply next_free; [exact Wx|]. rewrite <- keyb_spec, K. discriminate. }
    assert (FIX : forall x, iswire ks x = true -> iter (S n) Wn x = next (iter (S n) Wn) x).
    { intros x Wx. rewrite <- iter_next. apply ST; [|exact Wx]. intros y Wy Ny. now apply FX. }
    exists (iter (S n) Wn), (exec body (wired ks Q (iter (S n) Wn))). split; [apply settled_next; split; [reflexivity|exact FIX]|].
    intros W' E' H. apply settled_next in H. destruct H as [H1 H2].
    assert (UN : forall x, iswire ks x = true -> W' x = iter (S n) Wn x).
    { assert (IT : forall m x, iswire ks x = true -> W' x = iter m W' x).
      { induction m as [|m IH]; intros x Wx; [reflexivity|]. cbn [iter]. rewrite H2 by exact Wx. now apply next_same. }
      intros x Wx. rewrite (ST W'); [now apply IT| |exact Wx]. intros y Wy Ny. unfold Wn. rewrite H2 by exact Wy. now apply next_free. }
    split; [exact UN|]. intros x. rewrite H1.
    rewrite (exec_walk (wired ks Q W') body [] (wired ks Q W') (wired ks Q W')), (exec_walk (wired ks Q W') body [] (wired ks Q (iter (S n) Wn)) (wired ks Q (iter (S n) Wn))).
    2-5: try reflexivity.
    2:{ intros y Hy. split; [symmetry; apply tests_same; [intros z Wz _; now apply UN|exact Hy]|now apply Quiet]. }
    2:{ intros y Hy. split; [reflexivity|now apply Quiet]. }
    apply play_srcs. intros y _. unfold wired. destruct (iswire ks y) eqn:Wy; [now apply UN|reflexivity].
  Qed.
End Settle.
