(** Which blocks after conditionals become states, in programs without goto. *)
From Coq Require Import List Bool Arith ZArith Lia.
Import ListNotations.
From Verif Require Import FsmModel FsmEmit FsmLayout FsmGather FsmBody FsmRenum FsmRegion FsmJoin FsmStates FsmBig FsmTimeGather.

(** [false]: the end of the instruction is after a break, whatever the conditions. Characterizes, on the text, the blocks without parent of
    [renumberStates], src/Algorithm.cpp 4284-4347. *)
Fixpoint reaches (st : stmt) : bool :=
  match st with
  | SBreak | SGoto _ => false
  | SBlock l => forallb reaches l
  | _ => true
  end.
Definition reachess (l : list stmt) : bool := forallb reaches l.

(** The end of the instruction is the end of a cycle. Characterizes, on the text, the states added by [preventIfElseCodeDup], src/Algorithm.cpp 4182-4222, and
    [gatherSwitchCase], 3150-3193. *)
Definition cut (st : stmt) : bool :=
  match st with
  | SIf _ l => negb (timelesss l) && reachess l
  | SIfElse _ l1 l2 => (negb (timelesss l1) && reachess l1) || (negb (timelesss l2) && reachess l2) || (negb (reachess l1) && negb (reachess l2))
  | SSwitch _ cs => negb (timeless st)
  | _ => false
  end.

Lemma timeless_reaches st : timeless st = true -> reaches st = true.
Proof.
  induction st using stmt_ind'; cbn; intros T; try reflexivity; try discriminate.
  induction H as [|x l H1 H2 IH]; cbn in *; [reflexivity|]. apply andb_true_iff in T. destruct T as [T1 T2]. rewrite (H1 T1). now apply IH.
Qed.
Lemma timelesss_reachess l : timelesss l = true -> reachess l = true.
Proof.
  unfold timelesss, reachess. induction l as [|x l IH]; cbn; [reflexivity|]. intros T. apply andb_true_iff in T. destruct T as [T1 T2]. now rewrite (timeless_reaches x T1), IH.
Qed.

(** New states have a reason. *)
Definition promoted (r : rst) (fi : bool) (it : nat) (fe : bool) (et : nat) : bool :=
  (negb (dead r it) && negb fi) || (negb (dead r et) && negb fe) || (dead r it && dead r et).
Lemma prevent_new r unr : forall bs g ch g' ch', prevent r unr bs g ch = Some (g', ch') -> forall x, b_state (g' x) = true -> b_state (g x) = true \/
  exists b e ib fi it eb fe et, In b bs /\ unr b = false /\ b_end (g b) = EIf e ib fi it eb fe et x /\ promoted r fi it fe et = true /\ (dead r it && fi) || (dead r et && fe) = false.
Proof.
  induction bs as [|b bs IH]; intros g ch g' ch' H x Hx; cbn [prevent] in H; [injection H as <- <-; now left|].
  assert (SK : prevent r unr bs g ch = Some (g', ch') -> b_state (g x) = true \/ exists b0 e ib fi it eb fe et, In b0 (b :: bs) /\ unr b0 = false /\
     b_end (g b0) = EIf e ib fi it eb fe et x /\ promoted r fi it fe et = true /\ (dead r it && fi) || (dead r et && fe) = false).
  { intros H0. destruct (IH _ _ _ _ H0 x Hx) as [X|[b0 [e [ib [fi [it [eb [fe [et [X1 X2]]]]]]]]]]; [now left|]. right.
    exists b0, e, ib, fi, it, eb, fe, et. split; [now right|exact X2]. }
  destruct (unr b) eqn:U; [now apply SK|].
  destruct (b_end (g b)) as [|n|e ib fi it eb fe et af|e cs af|e it af|d w n|c sv cid go rt|c rets] eqn:E; try (now apply SK).
  destruct (b_state (g af)) eqn:Sa; [now apply SK|].
  destruct ((dead r it && fi) || (dead r et && fe)) eqn:AS; [discriminate|].
  change (prevent r unr bs (set_state g af (promoted r fi it fe et)) (ch || promoted r fi it fe et) = Some (g', ch')) in H.
  destruct (IH _ _ _ _ H x Hx) as [X|[b0 [e0 [ib0 [fi0 [it0 [eb0 [fe0 [et0 [X1 [X2 [X3 X4]]]]]]]]]]]].
  - unfold set_state, gset in X. destruct (Nat.eqb_spec x af) as [ ->|]; [|now left]. cbn in X. right.
    exists b, e, ib, fi, it, eb, fe, et. split; [now left|]. auto.
  - right. rewrite set_state_end in X3. exists b0, e0, ib0, fi0, it0, eb0, fe0, et0. split; [now right|]. auto.
Qed.

(** * Layout with the states after conditionals *)
Section Layoutx.
  Variable G : graph.
  Variable Lb : nat -> nat -> Prop.
  Variable V : nat -> Prop.   (* blocks that are visited *)

  (** Empty blocks lead from [x] to a state. *)
  Inductive Skip : nat -> Prop :=
  | sk_state x n : b_ins (G x) = [] -> nexts G x n -> b_noskip (G n) = false -> b_state (G n) = true -> Skip x
  | sk_more x n : b_ins (G x) = [] -> nexts G x n -> b_noskip (G n) = false -> Skip n -> Skip x.

  Definition timed (m : nat) (j : bool) : Prop := (b_state (G m) = true -> j = true) /\ (b_state (G m) = false -> j = true -> Skip m).

  (** [tr] without goto; when a conditional is visited the block after it is a state if [cut] says so, or is skipped. *)
  Inductive trx : option nat -> stmt -> nat -> nat -> nat -> nat -> nat -> nat -> Prop :=
  | trx_assign brk x e lo b i : nth_error (b_ins (G b)) i = Some (IAssign x e) -> trx brk (SAssign x e) lo lo b i b (S i)
  | trx_return brk lo b i : nth_error (b_ins (G b)) i = Some IReturn -> trx brk SReturn lo lo b i b (S i)
  | trx_block brk l lo hi b i m : trxb brk l lo hi b i m -> trx brk (SBlock l) lo hi b i m 0
  | trx_if brk e l lo m b i ia : full G b i -> b_end (G b) = EIf e lo (timelesss l) ia (S lo) true (S lo) m ->
      fresh G lo -> fresh G (S lo) -> trxb brk l (S (S lo)) m lo 0 ia -> full G ia 0 -> nexts G ia m -> full G (S lo) 0 -> nexts G (S lo) m ->
      b_noskip (G m) = false -> (V b -> timed m (cut (SIf e l))) ->
      trx brk (SIf e l) lo (S m) b i m 0
  | trx_ifelse brk e l1 l2 lo m1 m b i ia ea : full G b i -> b_end (G b) = EIf e lo (timelesss l1) ia (S lo) (timelesss l2) ea m ->
      fresh G lo -> fresh G (S lo) -> trxb brk l1 (S (S lo)) m1 lo 0 ia -> full G ia 0 -> nexts G ia m ->
      trxb brk l2 m1 m (S lo) 0 ea -> full G ea 0 -> nexts G ea m ->
      b_noskip (G m) = false -> (V b -> timed m (cut (SIfElse e l1 l2))) ->
      trx brk (SIfElse e l1 l2) lo (S m) b i m 0
  | trx_switch brk e cs bs lo hi b i : full G b i -> b_end (G b) = ESwitch e bs lo -> trxcs brk lo cs bs (S lo) hi ->
      b_noskip (G lo) = false -> b_state (G lo) = cut (SSwitch e cs) ->
      trx brk (SSwitch e cs) lo hi b i lo 0
  | trx_while brk e l lo hi b i il : full G b i -> nexts G b lo -> b_state (G lo) = true -> b_noskip (G lo) = false -> full G lo 0 ->
      b_end (G lo) = EWhile e (S lo) (S (S lo)) -> fresh G (S lo) -> b_noskip (G (S (S lo))) = false ->
      b_state (G (S (S lo))) = hasbrks l -> trxb (Some (S (S lo))) l (S (S (S lo))) hi (S lo) 0 il -> full G il 0 -> nexts G il lo ->
      trx brk (SWhile e l) lo hi b i (S (S lo)) 0
  | trx_break t lo b i : full G b i -> nexts G b t -> b_state (G t) = true -> fresh G lo -> trx (Some t) SBreak lo (S lo) b i lo 0
  | trx_step brk lo b i : full G b i -> nexts G b lo -> b_state (G lo) = true -> b_noskip (G lo) = true -> trx brk SStep lo (S lo) b i lo 0
  | trx_label brk n lo b i : full G b i -> nexts G b lo -> b_noskip (G lo) = false -> Lb n lo -> trx brk (SLabel n) lo (S lo) b i lo 0
  | trx_join brk d rb lo b i rest : full G b i -> nexts G b lo -> b_state (G lo) = true -> b_noskip (G lo) = false -> full G lo 0 ->
      b_end (G lo) = EWait d lo (S lo) -> b_state (G (S lo)) = true -> b_noskip (G (S lo)) = false ->
      b_ins (G (S lo)) = map (fun r => IAssign (fst r) (snd r)) rb ++ rest ->
      trx brk (SJoin d rb) lo (S (S lo)) b i (S lo) (length rb)
  with trxl : option nat -> list stmt -> nat -> nat -> nat -> nat -> nat -> nat -> Prop :=
  | trxl_nil brk lo b i : trxl brk [] lo lo b i b i
  | trxl_cons brk x r lo m hi b i b1 i1 b2 i2 : trx brk x lo m b i b1 i1 -> trxl brk r m hi b1 i1 b2 i2 -> trxl brk (x :: r) lo hi b i b2 i2
  with trxb : option nat -> list stmt -> nat -> nat -> nat -> nat -> nat -> Prop :=
  | trxb_intro brk l lo m b i a j : full G b i -> nexts G b lo -> fresh G lo -> trxl brk l (S lo) m lo 0 a j -> full G a j -> nexts G a m -> fresh G m ->
      trxb brk l lo (S m) b i m
  with trxcs : option nat -> nat -> list (option Z * list stmt) -> list (option Z * nat) -> nat -> nat -> Prop :=
  | trxcs_nil brk af lo : trxcs brk af [] [] lo lo
  | trxcs_cons brk af v l cs bs lo m hi a : fresh G lo -> trxb brk l (S lo) m lo 0 a -> full G a 0 -> nexts G a af -> trxcs brk af cs bs m hi ->
      trxcs brk af ((v, l) :: cs) ((v, lo) :: bs) lo hi.
End Layoutx.

(** * Reaching the ends of branches *)
Section Static.
  Variables (fuel : nat) (g1 G : graph) (V1 V : nat -> Prop) (Lb : nat -> nat -> Prop).
  Hypothesis Hend : forall x, b_end (G x) = b_end (g1 x).
  Hypothesis Hins : forall x, b_ins (G x) = b_ins (g1 x).
  Hypothesis Hnsk : forall x, b_noskip (G x) = b_noskip (g1 x).
  Hypothesis Hst : forall x, b_state (g1 x) = true -> b_state (G x) = true.
  Hypothesis nounres : forall b, b_end (G b) <> ENext None.
  Hypothesis HVc : forall b d, V1 b -> In (Some d) (children (b_end (g1 b))) -> exists y, tgt fuel g1 d y /\ V1 y.
  Hypothesis HVmin : forall P, Closed fuel g1 P -> P 0 -> forall b, V1 b -> P b.
  Hypothesis HV : forall b, V b -> V1 b.
  Hypothesis ifd : forall b e ib fi it eb fe et m, V1 b -> b_end (G b) = EIf e ib fi it eb fe et m ->
    (b_state (G m) = true /\ (fi = true -> V1 it) /\ (fe = true -> V1 et) /\ ((V1 it /\ fi = false) \/ (V1 et /\ fe = false) \/ (~ V1 it /\ ~ V1 et))) \/
    (b_state (G m) = false /\ b_state (g1 m) = false /\ (V1 it <-> fi = true) /\ (V1 et <-> fe = true) /\ (V1 it \/ V1 et)).

  Definition child (b z : nat) : Prop := In (Some z) (children (b_end (G b))).
  Lemma child_next b x : nexts G b x -> forall z, child b z <-> z = x.
  Proof. unfold nexts, child. intros -> z. cbn. split; [intros [[= ->]|[]]; reflexivity|intros ->; now left]. Qed.

  (** Visited, or skipped by a jump to a visited state. *)
  Definition Sk (x : nat) : Prop := exists f y, (forall l, ff_loop f g1 l x = Some y) /\ V1 y.
  Definition PC (x : nat) : Prop := V1 x \/ Sk x.
  Lemma const_absurd y : (forall l : nat, Some l = Some y) -> False.
  Proof. intros X. pose proof (X 0) as X0. pose proof (X 1) as X1. congruence. Qed.
  Lemma pc_state f n y : ff_loop f g1 n n = Some y -> V1 y -> PC n.
  Proof.
    intros H Vy. destruct (ff_shape f g1 n) as [X|[X|[z X]]].
    - rewrite X in H. discriminate.
    - left. rewrite X in H. congruence.
    - right. exists f, z. split; [exact X|]. rewrite X in H. congruence.
  Qed.
  Lemma sk_inv x : Sk x -> exists n, b_ins (G x) = [] /\ nexts G x n /\ b_noskip (G n) = false /\ ((b_state (g1 n) = true /\ PC n) \/ (b_state (g1 n) = false /\ Sk n)).
  Proof.
    intros [[|f] [y [H Vy]]]; [specialize (H 0); discriminate|]. cbn [ff_loop] in H.
    destruct (negb (block_empty (g1 x))) eqn:B; [destruct (const_absurd _ H)|].
    assert (I : b_ins (g1 x) = []) by (unfold block_empty in B; destruct (b_ins (g1 x)); [reflexivity|discriminate]).
    destruct (b_end (g1 x)) as [|[n|]| | | | | |] eqn:E; try (destruct (const_absurd _ H)); [|specialize (H 0); discriminate].
    destruct (b_noskip (g1 n)) eqn:N; [destruct (const_absurd _ H)|].
    exists n. rewrite Hins, Hnsk. unfold nexts. rewrite Hend. split; [exact I|]. split; [exact E|]. split; [exact N|].
    destruct (b_state (g1 n)) eqn:S; [left|right]; (split; [reflexivity|]).
    - exact (pc_state f n y (H 0) Vy).
    - exists f, y. auto.
  Qed.
  Lemma pc_child b z : PC b -> child b z -> PC z.
  Proof.
    intros [Hb|Hb] C.
    - unfold child in C. rewrite Hend in C. destruct (HVc b z Hb C) as [y [T Vy]]. unfold tgt in T. destruct (b_state (g1 z)); [|left; congruence].
      unfold fast_forward in T. destruct (b_noskip (g1 z)); [left; congruence|]. exact (pc_state _ _ _ T Vy).
    - destruct (sk_inv b Hb) as [n [_ [N [_ [[_ X]|[_ X]]]]]]; apply (child_next _ _ N) in C; subst; [exact X|now right].
  Qed.
  Lemma sk_skip x : Sk x -> Skip G x.
  Proof.
    intros [f [y [H Vy]]]. revert x H. induction f as [|f IH]; intros x H; [specialize (H 0); discriminate|].
    destruct (sk_inv x) as [n [I [N [K O]]]]; [exists (S f), y; auto|].
    destruct (b_state (G n)) eqn:S; [eapply sk_state; eassumption|]. destruct O as [[S1 _]|[S1 _]]; [rewrite (Hst n S1) in S; discriminate|].
    eapply sk_more; [exact I|exact N|exact K|]. apply IH. intros l. specialize (H l). cbn [ff_loop] in H.
    unfold nexts in N. unfold block_empty in H. rewrite Hend in N. rewrite Hins in I. rewrite Hnsk in K. rewrite I, N, K, S1 in H. exact H.
  Qed.

  Lemma reach_ok :
    (forall brk st lo hi b i b' i', tr G Lb brk st lo hi b i b' i' -> reaches st = true -> PC b -> PC b') /\
    (forall brk l lo hi b i b' i', trl G Lb brk l lo hi b i b' i' -> reachess l = true -> PC b -> PC b') /\
    (forall brk l lo hi b i m, trb G Lb brk l lo hi b i m -> reachess l = true -> PC b -> PC m) /\
    (forall brk af cs bs lo hi, trcs G Lb brk af cs bs lo hi -> True).
  Proof.
    assert (NX : forall b x, nexts G b x -> PC b -> PC x) by (intros b x N H; eapply pc_child; [exact H|]; apply (child_next _ _ N); reflexivity).
    apply tr_mutind; auto.
    - intros brk e l lo m b i ia Fb Eb F1 F2 Tr IH Fi Ni Fe Ne Nm Sm R Hb. eapply pc_child; [exact Hb|]. unfold child. rewrite Eb. cbn. auto.
    - intros brk e l1 l2 lo m1 m b i ia ea Fb Eb F1 F2 T1 IH1 Fi Ni T2 IH2 Fe Ne Nm Sm R Hb. eapply pc_child; [exact Hb|]. unfold child. rewrite Eb. cbn. auto.
    - intros brk e cs bs lo hi b i Fb Eb Tr IH Nm Sm R Hb. eapply pc_child; [exact Hb|]. unfold child. rewrite Eb. cbn. apply in_or_app. right. now left.
    - intros brk e l lo hi b i il Fb Nb Sl Kl Fl El F1 Kf Sa Tr IH Fi Ni R Hb. eapply pc_child; [exact (NX _ _ Nb Hb)|]. unfold child. rewrite El. cbn. auto.
    - intros; discriminate.
    - intros brk lo b i Fb Nb St K R Hb. eapply NX; eassumption.
    - intros brk n lo b i Fb Nb K Hl R Hb. eapply NX; eassumption.
    - intros; discriminate.
    - intros brk d rb lo b i rest Fb Nb Sl Kl Fl El Sn Kn Hi R Hb. eapply pc_child; [exact (NX _ _ Nb Hb)|]. unfold child. rewrite El. cbn. auto.
    - intros brk x r lo m hi b i b1 i1 b2 i2 T1 IH1 T2 IH2 R Hb. cbn in R. apply andb_true_iff in R. destruct R as [R1 R2]. auto.
    - intros brk l lo m b i a j Fb Nb F1 Tr IH Fa Na F2 R Hb. eapply NX; [exact Na|]. apply IH; [exact R|]. exact (NX _ _ Nb Hb).
  Qed.

  Lemma cs_in brk af cs bs lo hi : trcs G Lb brk af cs bs lo hi -> forall y, In y (map snd bs) -> lo <= y < hi.
  Proof.
    destruct (tr_exit G Lb) as [X1 [X2 [X3 X4]]].
    intros H. induction H as [|brk af v l cs bs lo m hi a F Tr Fa Na T2 IH]; cbn; [tauto|]. apply X3 in Tr. pose proof (X4 _ _ _ _ _ _ T2) as Y.
    intros y [ <-|Hy]; [lia|]. apply IH in Hy. lia.
  Qed.

  (** Children stay in the region. *)
  Lemma fw_ok :
    (forall brk st lo hi b i b' i', tr G Lb brk st lo hi b i b' i' -> gotos st = [] -> b < lo -> forall x z, own2 lo hi b b' x -> child x z -> lo <= z < hi \/ brk = Some z) /\
    (forall brk l lo hi b i b' i', trl G Lb brk l lo hi b i b' i' -> gotoss l = [] -> b < lo -> forall x z, own2 lo hi b b' x -> child x z -> lo <= z < hi \/ brk = Some z) /\
    (forall brk l lo hi b i m, trb G Lb brk l lo hi b i m -> gotoss l = [] -> b < lo -> forall x z, own2 lo hi b m x -> child x z -> lo <= z < hi \/ brk = Some z) /\
    (forall brk af cs bs lo hi, trcs G Lb brk af cs bs lo hi -> flat_map (fun c => gotoss (snd c)) cs = [] -> forall x z, lo <= x < hi -> child x z -> lo <= z < hi \/ z = af \/ brk = Some z).
  Proof.
    destruct (tr_exit G Lb) as [X1 [X2 [X3 X4]]]. unfold own2.
    assert (NX : forall b x z, nexts G b x -> child b z -> z = x) by (intros b x z N C; now apply (child_next _ _ N)).
    apply tr_mutind.
    - intros; lia.
    - intros; lia.
    - intros brk l lo hi b i m Tr IH. exact IH.
    - intros brk e l lo m b i ia Fb Eb F1 F2 Tr IH Fi Ni Fe Ne Nm Sm GT L x z H C. destruct (X3 _ _ _ _ _ _ _ Tr) as [Y1 Y2].
      destruct (Nat.eq_dec x b) as [ ->|N0]; [unfold child in C; rewrite Eb in C; cbn in C; destruct C as [[= <-]|[[= <-]|[[= <-]|[]]]]; lia|].
      destruct (Nat.eq_dec x ia) as [ ->|N1]; [apply (NX _ _ _ Ni) in C; lia|].
      destruct (Nat.eq_dec x (S lo)) as [ ->|N2]; [apply (NX _ _ _ Ne) in C; lia|]. destruct (IH GT ltac:(lia) x z ltac:(lia) C); [lia|now right].
    - intros brk e l1 l2 lo m1 m b i ia ea Fb Eb F1 F2 T1 IH1 Fi Ni T2 IH2 Fe Ne Nm Sm GT L x z H C. destruct (X3 _ _ _ _ _ _ _ T1) as [Y1 Y2]. destruct (X3 _ _ _ _ _ _ _ T2) as [Y3 Y4].
      cbn in GT. apply app_eq_nil in GT. destruct GT as [GT1 GT2].
      destruct (Nat.eq_dec x b) as [ ->|N0]; [unfold child in C; rewrite Eb in C; cbn in C; destruct C as [[= <-]|[[= <-]|[[= <-]|[]]]]; lia|].
      destruct (Nat.eq_dec x ia) as [ ->|N1]; [apply (NX _ _ _ Ni) in C; lia|].
      destruct (Nat.eq_dec x ea) as [ ->|N2]; [apply (NX _ _ _ Ne) in C; lia|].
      assert (O : ((x = lo \/ S (S lo) <= x < m1) /\ x <> ia) \/ ((x = S lo \/ m1 <= x < m) /\ x <> ea)) by lia.
      destruct O as [O|O]; [destruct (IH1 GT1 ltac:(lia) x z O C)|destruct (IH2 GT2 ltac:(lia) x z O C)]; auto; left; lia.
    - intros brk e cs bs lo hi b i Fb Eb Tr IH Nm Sm GT L x z H C. pose proof (X4 _ _ _ _ _ _ Tr) as Y.
      destruct (Nat.eq_dec x b) as [ ->|N0].
      + unfold child in C. rewrite Eb in C. cbn in C. apply in_app_or in C. destruct C as [C|[[= <-]|[]]]; [|lia].
        apply in_map_iff in C. destruct C as [c [[= <-] C]]. left. pose proof (cs_in _ _ _ _ _ _ Tr (snd c) ltac:(now apply in_map)). lia.
      + destruct (IH GT x z ltac:(lia) C) as [O|[O|O]]; auto; left; lia.
    - intros brk e l lo hi b i il Fb Nb Sl Kl Fl El F1 Kf Sa Tr IH Fi Ni GT L x z H C. destruct (X3 _ _ _ _ _ _ _ Tr) as [Y1 Y2].
      destruct (Nat.eq_dec x b) as [ ->|N0]; [apply (NX _ _ _ Nb) in C; lia|]. destruct (Nat.eq_dec x il) as [ ->|N1]; [apply (NX _ _ _ Ni) in C; lia|].
      destruct (Nat.eq_dec x lo) as [ ->|N2]; [unfold child in C; rewrite El in C; cbn in C; destruct C as [[= <-]|[[= <-]|[]]]; lia|].
      destruct (IH GT ltac:(lia) x z ltac:(lia) C) as [O|[= <-]]; lia.
    - intros t lo b i Fb Nb St F GT L x z H C. assert (x = b) by lia. subst. apply (NX _ _ _ Nb) in C. subst. now right.
    - intros brk lo b i Fb Nb St K GT L x z H C. assert (x = b) by lia. subst. apply (NX _ _ _ Nb) in C. lia.
    - intros brk n lo b i Fb Nb K Hl GT L x z H C. assert (x = b) by lia. subst. apply (NX _ _ _ Nb) in C. lia.
    - intros; discriminate.
    - intros brk d rb lo b i rest Fb Nb Sl Kl Fl El Sn Kn Hi GT L x z H C. assert (O : x = b \/ x = lo) by lia. destruct O as [ ->| ->]; [apply (NX _ _ _ Nb) in C; lia|].
      unfold child in C. rewrite El in C. cbn in C. destruct C as [[= <-]|[[= <-]|[]]]; lia.
    - intros; lia.
    - intros brk x r0 lo m hi b i b1 i1 b2 i2 T1 IH1 T2 IH2 GT L y z H C. unfold gotoss in GT. cbn in GT. apply app_eq_nil in GT. destruct GT as [GT1 GT2].
      destruct (X1 _ _ _ _ _ _ _ _ T1) as [Y1 Y2]. destruct (X2 _ _ _ _ _ _ _ _ T2) as [Y3 Y4].
      assert (O : ((y = b \/ lo <= y < m) /\ y <> b1) \/ ((y = b1 \/ m <= y < hi) /\ y <> b2)) by lia.
      destruct O as [O|O]; [destruct (IH1 GT1 ltac:(lia) y z O C)|destruct (IH2 GT2 ltac:(lia) y z O C)]; auto; left; lia.
    - intros brk l lo m b i a j Fb Nb F1 Tr IH Fa Na F2 GT L x z H C. destruct (X2 _ _ _ _ _ _ _ _ Tr) as [Y1 Y2].
      destruct (Nat.eq_dec x b) as [ ->|N0]; [apply (NX _ _ _ Nb) in C; lia|]. destruct (Nat.eq_dec x a) as [ ->|N1]; [apply (NX _ _ _ Na) in C; lia|].
      destruct (IH GT ltac:(lia) x z ltac:(lia) C); [left; lia|now right].
    - intros; lia.
    - intros brk af v l cs bs lo m hi a F Tr IH Fa Na T2 IH2 GT x z Hx C. destruct (X3 _ _ _ _ _ _ _ Tr) as [Y1 Y2]. pose proof (X4 _ _ _ _ _ _ T2) as Y3.
      cbn in GT. apply app_eq_nil in GT. destruct GT as [GT1 GT2].
      destruct (le_lt_dec m x); [destruct (IH2 GT2 x z ltac:(lia) C) as [O|O]; [left; lia|now right]|].
      destruct (Nat.eq_dec x a) as [ ->|N1]; [apply (NX _ _ _ Na) in C; auto|]. destruct (IH GT1 ltac:(lia) x z ltac:(lia) C); [left; lia|auto].
  Qed.

  (** Blocks that no path reaches. *)
  Definition Dead (x : nat) : Prop := exists D : nat -> Prop, D x /\ ~ D 0 /\ forall y z, child y z -> D z -> D y.
  Lemma dead_ff (D : nat -> Prop) : (forall y z, child y z -> D z -> D y) -> forall f l c y, ff_loop f g1 l c = Some y -> ~ D l -> ~ D c -> ~ D y.
  Proof.
    intros B. induction f as [|f IH]; intros l c y H Nl Nc; cbn [ff_loop] in H; [discriminate|].
    destruct (negb (block_empty (g1 c))); [congruence|]. destruct (b_end (g1 c)) as [|[n|]| | | | | |] eqn:E; try congruence.
    destruct (b_noskip (g1 n)); [congruence|].
    assert (Nn : ~ D n) by (intros X; apply Nc; apply (B c n); [unfold child; rewrite Hend, E; now left|exact X]).
    apply (IH _ _ _ H); [now destruct (b_state (g1 n))|exact Nn].
  Qed.
  Lemma dead_vis x : Dead x -> ~ V1 x.
  Proof.
    intros [D [Dx [D0 B]]] Vx. revert Dx. apply (HVmin (fun b => ~ D b)); [|exact D0|exact Vx].
    intros b c y Nb C T. assert (Nc : ~ D c) by (intros X; apply Nb; apply (B b c); [unfold child; now rewrite Hend|exact X]).
    unfold tgt in T. destruct (b_state (g1 c)); [|congruence]. unfold fast_forward in T. destruct (b_noskip (g1 c)); [congruence|].
    exact (dead_ff D B _ _ _ _ T Nc Nc).
  Qed.

  Lemma if_timed b e l lo ia m : V1 b -> b_end (G b) = EIf e lo (timelesss l) ia (S lo) true (S lo) m -> nexts G ia m -> fresh G (S lo) -> b_noskip (G m) = false ->
    (reachess l = true -> PC ia) -> (reachess l = false -> Dead ia) -> timed G m (cut (SIf e l)).
  Proof.
    intros Vb E N [F1 _] Km R1 R2. cbn [cut].
    assert (VE : V1 (S lo)).
    { destruct (HVc b (S lo) Vb) as [y [T Vy]]; [rewrite <- Hend, E; cbn; auto|]. unfold tgt in T. destruct (b_state (g1 (S lo))) eqn:X; [rewrite (Hst _ X) in F1; discriminate|congruence]. }
    destruct (ifd _ _ _ _ _ _ _ _ _ Vb E) as [[S [I1 [I2 O]]]|[S [S1 [I1 [I2 O]]]]]; split; intros X; try congruence.
    - destruct O as [[O1 O2]|[[O1 O2]|[O1 O2]]]; [|discriminate|contradiction]. rewrite O2. cbn. destruct (reachess l) eqn:R; [reflexivity|]. destruct (dead_vis _ (R2 eq_refl) O1).
    - intros C. apply andb_true_iff in C. destruct C as [C1 C2]. apply negb_true_iff in C1. destruct (R1 C2) as [Vi|Vi]; [apply I1 in Vi; congruence|].
      apply sk_skip. destruct (sk_inv _ Vi) as [n [_ [N' [_ [[Y _]|[_ Y]]]]]]; assert (n = m) by (unfold nexts in *; congruence); subst n; [congruence|exact Y].
  Qed.
  Lemma ifelse_timed b e l1 l2 lo ia ea m : V1 b -> b_end (G b) = EIf e lo (timelesss l1) ia (S lo) (timelesss l2) ea m -> nexts G ia m -> nexts G ea m -> b_noskip (G m) = false ->
    (reachess l1 = true -> PC ia) -> (reachess l1 = false -> Dead ia) -> (reachess l2 = true -> PC ea) -> (reachess l2 = false -> Dead ea) -> timed G m (cut (SIfElse e l1 l2)).
  Proof.
    intros Vb E N1 N2 Km P1 D1 P2 D2. cbn [cut].
    assert (SM : forall x, nexts G x m -> b_state (g1 m) = false -> Sk x -> Skip G m).
    { intros x N S1 Vi. apply sk_skip. destruct (sk_inv _ Vi) as [n [_ [N' [_ [[Y _]|[_ Y]]]]]]; assert (n = m) by (unfold nexts in *; congruence); subst n; [congruence|exact Y]. }
    destruct (ifd _ _ _ _ _ _ _ _ _ Vb E) as [[S [I1 [I2 O]]]|[S [S1 [I1 [I2 O]]]]]; split; intros X; try congruence.
    - destruct (timelesss l1) eqn:T1, (timelesss l2) eqn:T2; destruct (reachess l1) eqn:R1, (reachess l2) eqn:R2; cbn; try reflexivity; exfalso;
        try (apply timelesss_reachess in T1; congruence); try (apply timelesss_reachess in T2; congruence).
      + destruct O as [[_ O]|[[_ O]|[O _]]]; try discriminate. now apply O, I1.
      + destruct O as [[_ O]|[[O _]|[O _]]]; try discriminate; [|now apply O, I1]. exact (dead_vis _ (D2 eq_refl) O).
      + destruct O as [[O _]|[[_ O]|[_ O]]]; try discriminate; [|now apply O, I2]. exact (dead_vis _ (D1 eq_refl) O).
    - intros C. apply orb_true_iff in C. destruct C as [C|C]; [apply orb_true_iff in C; destruct C as [C|C]|]; apply andb_true_iff in C; destruct C as [C1 C2]; apply negb_true_iff in C1.
      + destruct (P1 C2) as [Vi|Vi]; [apply I1 in Vi; congruence|]. exact (SM ia N1 S1 Vi).
      + destruct (P2 C2) as [Vi|Vi]; [apply I2 in Vi; congruence|]. exact (SM ea N2 S1 Vi).
      + apply negb_true_iff in C2. exfalso. destruct O as [O|O]; [exact (dead_vis _ (D1 C1) O)|exact (dead_vis _ (D2 C2) O)].
  Qed.

  (** Only [b] leads into the region from outside; the end of the region does not lead back to it. *)
  Definition Ent (lo hi b : nat) : Prop := forall y z, child y z -> lo <= z < hi -> y = b \/ lo <= y < hi.
  Definition Exi (lo hi b' : nat) : Prop := forall z, child b' z -> lo <= z < hi -> False.
  Definition Bkl (brk : option nat) (lo : nat) : Prop := forall t, brk = Some t -> t < lo.
  Lemma trx_ok :
    (forall brk st lo hi b i b' i', tr G Lb brk st lo hi b i b' i' -> gotos st = [] -> 0 < lo -> b < lo -> Bkl brk lo -> Ent lo hi b -> Exi lo hi b' ->
       trx G Lb V brk st lo hi b i b' i' /\ (reaches st = false -> Dead b')) /\
    (forall brk l lo hi b i b' i', trl G Lb brk l lo hi b i b' i' -> gotoss l = [] -> 0 < lo -> b < lo -> Bkl brk lo -> Ent lo hi b -> Exi lo hi b' ->
       trxl G Lb V brk l lo hi b i b' i' /\ (reachess l = false -> Dead b')) /\
    (forall brk l lo hi b i m, trb G Lb brk l lo hi b i m -> gotoss l = [] -> 0 < lo -> b < lo -> Bkl brk lo -> Ent lo hi b -> Exi lo hi m ->
       trxb G Lb V brk l lo hi b i m /\ (reachess l = false -> Dead m)) /\
    (forall brk af cs bs lo hi, trcs G Lb brk af cs bs lo hi -> flat_map (fun c => gotoss (snd c)) cs = [] -> 0 < lo -> Bkl brk lo -> af < lo ->
       (forall y z, child y z -> lo <= z < hi -> In z (map snd bs) \/ lo <= y < hi) ->
       trxcs G Lb V brk af cs bs lo hi).
  Proof.
    destruct (tr_exit G Lb) as [X1 [X2 [X3 X4]]]. destruct reach_ok as [P1 [P2 [P3 _]]]. destruct fw_ok as [W1 [W2 [W3 W4]]].
    assert (NX : forall b x z, nexts G b x -> child b z -> z = x) by (intros b x z N C; now apply (child_next _ _ N)).
    assert (VC : forall b z, V1 b -> child b z -> PC z) by (intros b z Vb C; eapply pc_child; [left; exact Vb|exact C]).
    apply tr_mutind.
    - intros. split; [now constructor|discriminate].
    - intros. split; [now constructor|discriminate].
    - intros brk l lo hi b i m Tr IH GT L0 L B E X. destruct (IH GT L0 L B E X) as [I1 I2]. split; [now constructor|exact I2].
    - intros brk e l lo m b i ia Fb Eb F1 F2 Tr IH Fi Ni Fe Ne Nm Sm GT L0 L B E X. destruct (X3 _ _ _ _ _ _ _ Tr) as [Y1 Y2].
      destruct (IH GT ltac:(lia) ltac:(lia)) as [I1 I2].
      { intros t Ht. apply B in Ht. lia. }
      { intros y z C Hz. destruct (E y z C ltac:(lia)) as [ ->|Hy].
        - unfold child in C. rewrite Eb in C. cbn in C. destruct C as [[= <-]|[[= <-]|[[= <-]|[]]]]; lia.
        - destruct (Nat.eq_dec y (S lo)) as [ ->|]; [apply (NX _ _ _ Ne) in C; lia|]. destruct (Nat.eq_dec y m) as [ ->|]; [destruct (X z C); lia|]. lia. }
      { intros z C Hz. apply (NX _ _ _ Ni) in C. lia. }
      split; [|discriminate]. eapply trx_if; try eassumption. intros Vb. apply HV in Vb. eapply if_timed; try eassumption.
      intros R. apply (P3 _ _ _ _ _ _ _ Tr R). apply (VC b); [exact Vb|]. unfold child. rewrite Eb. now left.
    - intros brk e l1 l2 lo m1 m b i ia ea Fb Eb F1 F2 T1 IH1 Fi Ni T2 IH2 Fe Ne Nm Sm GT L0 L B E X. destruct (X3 _ _ _ _ _ _ _ T1) as [Y1 Y2]. destruct (X3 _ _ _ _ _ _ _ T2) as [Y3 Y4].
      cbn in GT. apply app_eq_nil in GT. destruct GT as [GT1 GT2].
      assert (EE : forall y z, child y z -> S (S lo) <= z < m -> (y = lo \/ S (S lo) <= y < m1) /\ y <> ia \/ (y = S lo \/ m1 <= y < m) /\ y <> ea).
      { intros y z C Hz. destruct (E y z C ltac:(lia)) as [ ->|Hy].
        - unfold child in C. rewrite Eb in C. cbn in C. destruct C as [[= <-]|[[= <-]|[[= <-]|[]]]]; lia.
        - destruct (Nat.eq_dec y ia) as [ ->|]; [apply (NX _ _ _ Ni) in C; lia|]. destruct (Nat.eq_dec y ea) as [ ->|]; [apply (NX _ _ _ Ne) in C; lia|].
          destruct (Nat.eq_dec y m) as [ ->|]; [destruct (X z C); lia|]. lia. }
      destruct (IH1 GT1 ltac:(lia) ltac:(lia)) as [I1 I2].
      { intros t Ht. apply B in Ht. lia. }
      { intros y z C Hz. destruct (EE y z C ltac:(lia)) as [O|O]; [lia|]. destruct (W3 _ _ _ _ _ _ _ T2 GT2 ltac:(lia) y z O C) as [O2|O2]; [lia|]. apply B in O2. lia. }
      { intros z C Hz. apply (NX _ _ _ Ni) in C. lia. }
      destruct (IH2 GT2 ltac:(lia) ltac:(lia)) as [I3 I4].
      { intros t Ht. apply B in Ht. lia. }
      { intros y z C Hz. destruct (EE y z C ltac:(lia)) as [O|O]; [|lia]. destruct (W3 _ _ _ _ _ _ _ T1 GT1 ltac:(lia) y z O C) as [O2|O2]; [lia|]. apply B in O2. lia. }
      { intros z C Hz. apply (NX _ _ _ Ne) in C. lia. }
      split; [|discriminate]. eapply trx_ifelse; try eassumption. intros Vb. apply HV in Vb. eapply (ifelse_timed b); try eassumption.
      + intros R. apply (P3 _ _ _ _ _ _ _ T1 R). apply (VC b); [exact Vb|]. unfold child. rewrite Eb. now left.
      + intros R. apply (P3 _ _ _ _ _ _ _ T2 R). apply (VC b); [exact Vb|]. unfold child. rewrite Eb. right. now left.
    - intros brk e cs bs lo hi b i Fb Eb Tr IH Nm Sm GT L0 L B E X. pose proof (X4 _ _ _ _ _ _ Tr) as Y. split; [|discriminate].
      eapply trx_switch; try eassumption. apply IH; [exact GT|lia|intros t Ht; apply B in Ht; lia|lia|].
      intros y z C Hz. destruct (E y z C ltac:(lia)) as [ ->|Hy].
      + left. unfold child in C. rewrite Eb in C. cbn in C. apply in_app_or in C. destruct C as [C|[[= <-]|[]]]; [|lia].
        apply in_map_iff in C. destruct C as [c [[= <-] C]]. now apply in_map.
      + destruct (Nat.eq_dec y lo) as [ ->|]; [destruct (X z C); lia|]. right. lia.
    - intros brk e l lo hi b i il Fb Nb Sl Kl Fl El F1 Kf Sa Tr IH Fi Ni GT L0 L B E X. destruct (X3 _ _ _ _ _ _ _ Tr) as [Y1 Y2].
      destruct (IH GT ltac:(lia) ltac:(lia)) as [I1 I2].
      { intros t [= <-]. lia. }
      { intros y z C Hz. destruct (E y z C ltac:(lia)) as [ ->|Hy]; [apply (NX _ _ _ Nb) in C; lia|].
        destruct (Nat.eq_dec y lo) as [ ->|]; [unfold child in C; rewrite El in C; cbn in C; destruct C as [[= <-]|[[= <-]|[]]]; lia|].
        destruct (Nat.eq_dec y (S (S lo))) as [ ->|]; [destruct (X z C); lia|]. lia. }
      { intros z C Hz. apply (NX _ _ _ Ni) in C. lia. }
      split; [|discriminate]. eapply trx_while; eassumption.
    - intros t lo b i Fb Nb St F GT L0 L B E X. split; [now constructor|]. intros _. exists (fun x => x = lo). split; [reflexivity|]. split; [lia|].
      intros y z C ->. destruct (E y lo C ltac:(lia)) as [ ->|Hy]; [|lia]. apply (NX _ _ _ Nb) in C. subst t. specialize (B lo eq_refl). lia.
    - intros brk lo b i Fb Nb St K GT L0 L B E X. split; [now constructor|discriminate].
    - intros brk n lo b i Fb Nb K Hl GT L0 L B E X. split; [now constructor|discriminate].
    - intros; discriminate.
    - intros brk d rb lo b i rest Fb Nb Sl Kl Fl El Sn Kn Hi GT L0 L B E X. split; [now apply trx_join with rest|discriminate].
    - intros. split; [constructor|discriminate].
    - intros brk x r0 lo m hi b i b1 i1 b2 i2 T1 IH1 T2 IH2 GT L0 L B E X. unfold gotoss in GT. cbn in GT. apply app_eq_nil in GT. destruct GT as [GT1 GT2].
      destruct (X1 _ _ _ _ _ _ _ _ T1) as [Y1 Y2]. destruct (X2 _ _ _ _ _ _ _ _ T2) as [Y3 Y4].
      assert (B2 : Bkl brk m) by (intros t Ht; apply B in Ht; lia).
      assert (L1 : b1 < m) by lia.
      destruct (IH1 GT1 L0 L B) as [I1 I2].
      { intros y z C Hz. destruct (E y z C ltac:(lia)) as [ ->|Hy]; [now left|]. destruct (le_lt_dec m y); [|lia].
        destruct (Nat.eq_dec y b2) as [ ->|N2]; [destruct (X z C); lia|]. destruct (W2 _ _ _ _ _ _ _ _ T2 GT2 L1 y z ltac:(unfold own2; lia) C) as [O|O]; [lia|]. apply B in O. lia. }
      { intros z C Hz. destruct (Nat.eq_dec b1 b2) as [ ->|N2]; [apply (X z C); lia|]. destruct (W2 _ _ _ _ _ _ _ _ T2 GT2 L1 b1 z ltac:(unfold own2; lia) C) as [O|O]; [lia|]. apply B in O. lia. }
      assert (E2 : Ent m hi b1).
      { intros y z C Hz. destruct (Nat.eq_dec y b1) as [ ->|N1]; [now left|]. destruct (le_lt_dec m y).
        - destruct (E y z C ltac:(lia)) as [ ->|Hy]; [|lia]. lia.
        - exfalso. destruct (E y z C ltac:(lia)) as [O|O]; (destruct (W1 _ _ _ _ _ _ _ _ T1 GT1 L y z ltac:(unfold own2; lia) C) as [O2|O2]; [lia|]; apply B in O2; lia). }
      destruct (IH2 GT2 ltac:(lia) L1 B2 E2) as [I3 I4].
      { intros z C Hz. apply (X z C). lia. }
      split; [econstructor; eassumption|]. intros R. cbn in R. apply andb_false_iff in R.
      destruct (reaches x) eqn:RX; [destruct R as [R|R]; [discriminate|now apply I4]|].
      destruct (I2 eq_refl) as [D [D1 [D2 D3]]]. exists (fun y => D y \/ m <= y < hi). split; [|split].
      + destruct Y4 as [ ->|Y4]; [now left|now right].
      + intros [O|O]; [contradiction|lia].
      + intros y z C [O|O]; [left; now apply (D3 y z)|]. destruct (E2 y z C O) as [ ->|O2]; [now left|now right].
    - intros brk l lo m b i a j Fb Nb F1 Tr IH Fa Na F2 GT L0 L B E X. destruct (X2 _ _ _ _ _ _ _ _ Tr) as [Y1 Y2].
      assert (EA : forall z, child a z -> z = m) by (intros z; apply (NX _ _ _ Na)).
      destruct (IH GT ltac:(lia) ltac:(lia)) as [I1 I2].
      { intros t Ht. apply B in Ht. lia. }
      { intros y z C Hz. destruct (E y z C ltac:(lia)) as [ ->|Hy]; [apply (NX _ _ _ Nb) in C; lia|]. destruct (Nat.eq_dec y m) as [ ->|]; [destruct (X z C); lia|]. lia. }
      { intros z C Hz. apply EA in C. lia. }
      split; [econstructor; eassumption|]. intros R. destruct (I2 R) as [D [D1 [D2 D3]]]. exists (fun y => D y \/ y = m). split; [now right|]. split; [intros [O|O]; [contradiction|lia]|].
      intros y z C [O| ->]; [left; now apply (D3 y z)|]. destruct (E y m C ltac:(lia)) as [ ->|Hy]; [apply (NX _ _ _ Nb) in C; lia|].
      destruct (Nat.eq_dec y m) as [ ->|N1]; [now right|]. destruct (Nat.eq_dec y a) as [ ->|N2]; [now left|].
      exfalso. destruct (W2 _ _ _ _ _ _ _ _ Tr GT ltac:(lia) y m ltac:(unfold own2; lia) C) as [O|O]; [lia|]. apply B in O. lia.
    - intros. constructor.
    - intros brk af v l cs bs lo m hi a F Tr IH Fa Na T2 IH2 GT L0 B La E. destruct (X3 _ _ _ _ _ _ _ Tr) as [Y1 Y2]. pose proof (X4 _ _ _ _ _ _ T2) as Y3.
      cbn in GT. apply app_eq_nil in GT. destruct GT as [GT1 GT2].
      pose proof (cs_in _ _ _ _ _ _ T2) as CI.
      assert (B2 : Bkl brk m) by (intros t Ht; apply B in Ht; lia).
      destruct (IH GT1 ltac:(lia) ltac:(lia)) as [I1 I2].
      { intros t Ht. apply B in Ht. lia. }
      { intros y z C Hz. destruct (E y z C ltac:(lia)) as [Hy|Hy].
        - cbn in Hy. destruct Hy as [Hy|Hy]; [lia|]. apply CI in Hy. lia.
        - destruct (le_lt_dec m y); [|lia]. destruct (W4 _ _ _ _ _ _ T2 GT2 y z ltac:(lia) C) as [O|[O|O]]; [lia|lia|]. apply B in O. lia. }
      { intros z C Hz. apply (NX _ _ _ Na) in C. lia. }
      econstructor; try eassumption. apply IH2; [exact GT2|lia|exact B2|lia|].
      intros y z C Hz. destruct (E y z C ltac:(lia)) as [Hy|Hy].
      + cbn in Hy. destruct Hy as [Hy|Hy]; [lia|now left].
      + destruct (le_lt_dec m y); [right; lia|]. exfalso. destruct (Nat.eq_dec y a) as [ ->|N1]; [apply (NX _ _ _ Na) in C; lia|].
        destruct (W3 _ _ _ _ _ _ _ Tr GT1 ltac:(lia) y z ltac:(unfold own2; lia) C) as [O|O]; [lia|]. apply B in O. lia.
  Qed.
End Static.

Theorem timed_ok fuel unit p s g r c ic : gather_body fuel unit p = Some s -> generate_states fuel s = Some (g, r) -> gotoss p = [] ->
  Good fuel (body unit p) s g r c ic -> trxl g (LbOf s) (fun b => In b (r_vis r)) None (body unit p) 1 (g_next s) 0 0 c ic.
Proof.
  intros GB GS NG O. pose proof O as O'. unfold gather_body in GB. rewrite body_gather in GB. unfold obind in GB.
  destruct (gather_list fuel None (body unit p) 0 gst0) as [[c0 s0]|] eqn:GL; [|discriminate].
  destruct (resolve (g_lbl s0) (g_fwd s0) (g_blk s0)) as [g1|] eqn:RS; [|discriminate]. injection GB as <-.
  assert (NB : gotoss (body unit p) = []).
  { destruct (gotoss (body unit p)) as [|n l] eqn:E; [reflexivity|]. assert (H : In n (gotoss (body unit p))) by (rewrite E; now left). apply body_gotos in H. rewrite NG in H. destruct H. }
  destruct (gather_list_ok fuel [] (body unit p) None 0 gst0 c0 s0 GL pre0 (nojumps_nil _)) as [P _]; [rewrite NB; apply incl_refl|].
  assert (FW : g_fwd s0 = []).
  { destruct (g_fwd s0) as [|[n b] l] eqn:E; [reflexivity|]. destruct (p_fwd _ _ _ _ _ _ _ P n b) as [X|X]; [rewrite E; now left|destruct X|]. rewrite NB in X. destruct X. }
  rewrite FW in RS. cbn in RS. injection RS as <-.
  pose proof (p_inv _ _ _ _ _ _ _ P) as I0. set (g1 := g_blk s0) in *.
  destruct (ifs_ok fuel _ _ _ GL NB) as [IF1 IF2]. fold g1 in IF1, IF2.
  unfold generate_states in GS.
  change (g_blk (upd_blk s0 g1)) with g1 in GS. change (g_next (upd_blk s0 g1)) with (g_next s0) in GS. unfold obind in GS.
  destruct (renumber fuel g1) as [r1|] eqn:RN; [|discriminate].
  destruct (prevent r1 (unreachable g1 r1) (seq 0 (g_next s0)) g1 false) as [[g2 ch]|] eqn:PV; [|discriminate].
  assert (F1 : Fut noE s0 (upd_blk s0 g1)).
  { unfold g1. replace (upd_blk s0 (g_blk s0)) with s0 by (destruct s0; reflexivity). apply fut_refl. exact (i_lbl s0 I0). }
  destruct (prevent_ok s0 r1 (unreachable g1 r1) I0 _ _ _ _ _ F1 PV) as [K1 [K2 [K3 [K4 [K5 [K6 [K7 K8]]]]]]].
  assert (S0 : b_state (g1 0) = true).
  { apply (f_state _ _ _ (p_fut _ _ _ _ _ _ _ P)); cbn; [lia|reflexivity]. }
  assert (REN1 : Ren fuel g1 r1) by (eapply loop_ren; [exact S0|exact RN]).
  assert (HVc : forall b d, In b (r_vis r1) -> In (Some d) (children (b_end (g1 b))) -> exists y, tgt fuel g1 d y /\ In y (r_vis r1)).
  { intros b d Vb Hd. destruct (n_child _ _ _ REN1 b (Some d) Vb Hd) as [d' [[= <-] Y]]. exact Y. }
  assert (REN : g = g2 /\ forall b, In b (r_vis r) -> In b (r_vis r1)).
  { destruct ch.
    - destruct (renumber fuel g2) as [r2|] eqn:RN2; [|discriminate]. injection GS as <- <-. split; [reflexivity|].
      assert (X : Ren fuel g2 r2) by (eapply loop_ren; [apply K5; exact S0|exact RN2]).
      intros b. apply (n_min _ _ _ X (fun b => In b (r_vis r1))); [|exact (n_zero _ _ _ REN1)].
      exact (mono_closed g1 g2 fuel (fun b => In b (r_vis r1)) K2 K3 K4 K5 HVc).
    - injection GS as <- <-. auto. }
  destruct REN as [ -> VS].
  assert (VD : forall b, In b (r_vis r1) <-> dead r1 b = false) by (intros b; symmetry; apply (n_dead _ _ _ REN1)).
  assert (UR : forall b, unreachable g1 r1 b = false <-> In b (r_vis r1)).
  { intros b. unfold unreachable. rewrite orb_false_iff, <- VD. split; [tauto|]. intros H. split; [|exact H]. destruct (b_state (g1 b)) eqn:Sb; [|reflexivity].
    destruct (n_state _ _ _ REN1 b H Sb) as [i ->]. reflexivity. }
  assert (ND : forall b, ~ In b (r_vis r1) <-> dead r1 b = true) by (intros b; rewrite VD; destruct (dead r1 b); split; congruence).
  destruct (trx_ok fuel g1 g2 (fun b => In b (r_vis r1)) (fun b => In b (r_vis r)) (LbOf (upd_blk s0 g1)) K2 K3 K4 K5) as [_ [TX _]]; auto.
  - exact (n_min _ _ _ REN1).
  - intros b e ib fi it eb fe et m Vb E. pose proof E as E1. rewrite K2 in E1.
    assert (IB : isif g1 b m) by (unfold isif; eauto 10). pose proof (IF1 _ _ IB) as Sm1.
    destruct (b_state (g2 m)) eqn:Sm; [left|right].
    + split; [reflexivity|]. destruct (prevent_new _ _ _ _ _ _ _ PV m Sm) as [X|[b' [e' [ib' [fi' [it' [eb' [fe' [et' [B1 [B2 [B3 [B4 B5]]]]]]]]]]]]]; [congruence|].
      assert (b' = b) by (apply (IF2 _ _ m); [unfold isif; eauto 10|exact IB]). subst b'. rewrite E1 in B3. injection B3 as <- <- <- <- <- <- <-.
      unfold promoted in B4. rewrite !ND. setoid_rewrite VD.
      destruct (dead r1 it), (dead r1 et), fi, fe; cbn in B4, B5; try discriminate; repeat split; intros; try discriminate; auto.
    + split; [reflexivity|]. split; [exact Sm1|]. destruct (K8 b e ib fi it eb fe et m) as [A1 [A2 A3]]; [| |exact E1|exact Sm|].
      * apply List.in_seq. split; [lia|]. destruct (le_lt_dec (g_next s0) b) as [L|L]; [|lia]. destruct (i_out s0 I0 b L) as [X _]. fold g1 in X. congruence.
      * now apply UR.
      * setoid_rewrite VD. destruct (dead r1 it), (dead r1 et), fi, fe; cbn in A1, A2, A3; try discriminate; repeat split; intros; try discriminate; auto.
  - destruct (TX _ _ _ _ _ _ _ _ (o_tr _ _ _ _ _ _ _ O) NB ltac:(lia) ltac:(lia)) as [T _].
    + intros t H. discriminate.
    + intros y z C Hz. destruct (le_lt_dec (g_next s0) y) as [L|L]; [|cbn; lia]. exfalso. unfold child in C. rewrite (o_out _ _ _ _ _ _ _ O y L) in C. destruct C.
    + intros z C. unfold child in C. rewrite (o_end _ _ _ _ _ _ _ O) in C. destruct C.
    + exact T.
Qed.
