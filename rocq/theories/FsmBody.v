(** The graph of a whole body: jumps resolved, blocks after conditionals promoted to states. *)
From Coq Require Import List Bool Arith ZArith Lia.
Import ListNotations.
From Verif Require Import FsmModel FsmEmit FsmLayout FsmGather.

(** * Forward jumps *)
Lemma assoc_some_in n l x : assoc n l = Some x -> In (n, x) l.
Proof. apply assoc_in. Qed.

Definition rstep (g : graph) (from b : nat) : graph := set_state (set_end g from (ENext (Some b))) b true.

Lemma rstep_end_same g from b : b_end (rstep g from b from) = ENext (Some b).
Proof. unfold rstep. gs. destruct (Nat.eq_dec from b); [subst; now rewrite !gset_same|rewrite gset_other by assumption; now rewrite gset_same]. Qed.
Lemma rstep_end_other g from b x : x <> from -> b_end (rstep g from b x) = b_end (g x).
Proof.
  intros N. unfold rstep. gs. destruct (Nat.eq_dec x b).
  - subst. rewrite gset_same. cbn. now rewrite gset_other.
  - rewrite gset_other by assumption. now rewrite gset_other.
Qed.
Lemma rstep_ins g from b x : b_ins (rstep g from b x) = b_ins (g x).
Proof.
  unfold rstep. gs. destruct (Nat.eq_dec x b).
  - subst. rewrite gset_same. cbn. destruct (Nat.eq_dec b from); [subst; now rewrite gset_same|now rewrite gset_other].
  - rewrite gset_other by assumption. destruct (Nat.eq_dec x from); [subst; now rewrite gset_same|now rewrite gset_other].
Qed.
Lemma rstep_noskip g from b x : b_noskip (rstep g from b x) = b_noskip (g x).
Proof.
  unfold rstep. gs. destruct (Nat.eq_dec x b).
  - subst. rewrite gset_same. cbn. destruct (Nat.eq_dec b from); [subst; now rewrite gset_same|now rewrite gset_other].
  - rewrite gset_other by assumption. destruct (Nat.eq_dec x from); [subst; now rewrite gset_same|now rewrite gset_other].
Qed.
Lemma rstep_state_same g from b : b_state (rstep g from b b) = true.
Proof. unfold rstep. gs. now rewrite gset_same. Qed.
Lemma rstep_state_other g from b x : x <> b -> b_state (rstep g from b x) = b_state (g x).
Proof.
  intros N. unfold rstep. gs. rewrite gset_other by assumption. destruct (Nat.eq_dec x from); [subst; now rewrite gset_same|now rewrite gset_other].
Qed.

Lemma rstep_fut s g n from b : Inv s -> NoDup (map snd (g_fwd s)) -> Fut noE s (upd_blk s g) -> In (n, from) (g_fwd s) -> assoc n (g_lbl s) = Some b ->
  b_end (g from) = ENext None -> Fut noE s (upd_blk s (rstep g from b)).
Proof.
  intros I ND F Hf Hl He. destruct F. cbn in *.
  assert (MS : forall x, b_state (g x) = true -> b_state (rstep g from b x) = true).
  { intros x H. destruct (Nat.eq_dec x b); [subst; apply rstep_state_same|now rewrite rstep_state_other]. }
  constructor; cbn; auto.
  - intros x L N. rewrite rstep_ins. destruct (f_seal x L N) as [A1 A2]. split; [exact A1|].
    destruct (Nat.eq_dec x from) as [ ->|Nx].
    + right. split; [now apply (i_fwd s I n)|]. intros m Hm. exists b. rewrite rstep_end_same. split; [reflexivity|]. split; [|apply rstep_state_same].
      assert (m = n); [|now subst]. clear - ND Hf Hm. induction (g_fwd s) as [|[k v] l IH]; [destruct Hf|]. cbn in ND. inversion ND as [|? ? N1 N2]; subst.
      destruct Hf as [[= -> ->]|Hf]; destruct Hm as [[= ->]|Hm].
      * reflexivity.
      * exfalso. apply N1. apply in_map_iff. now exists (m, from).
      * subst v. exfalso. apply N1. apply in_map_iff. now exists (n, from).
      * now apply IH.
    + rewrite rstep_end_other by exact Nx. destruct A2 as [A2|[A2 A3]]; [now left|right]. split; [exact A2|]. intros m Hm. destruct (A3 m Hm) as [y [Y1 [Y2 Y3]]].
      exists y. auto.
  - intros x L N. destruct (Nat.eq_dec x from) as [ ->|Nx]; [rewrite rstep_end_same; discriminate|]. rewrite rstep_end_other by exact Nx. auto.
  - intros x L. rewrite rstep_ins. auto.
  - intros x L. rewrite rstep_noskip. auto.
  - intros x L S. destruct (Nat.eq_dec x b) as [ ->|Nx]; [right; left; exists n; now apply assoc_in|]. rewrite rstep_state_other in S by exact Nx. auto.
  - intros x L [y [t [a1 [a2 [a3 [a4 [a5 [a6 [H H2]]]]]]]]]. apply f_prom; [exact L|]. destruct (Nat.eq_dec y from) as [ ->|Ny]; [rewrite rstep_end_same in H; discriminate|].
    rewrite rstep_end_other in H by exact Ny. exists y, t, a1, a2, a3, a4, a5, a6. auto.
Qed.

Lemma resolve_ok s : Inv s -> NoDup (map snd (g_fwd s)) -> forall r g g', incl r (g_fwd s) -> NoDup (map snd r) -> Fut noE s (upd_blk s g) ->
  (forall n from, In (n, from) r -> b_end (g from) = ENext None) -> resolve (g_lbl s) r g = Some g' ->
  Fut noE s (upd_blk s g') /\ (forall n from, In (n, from) r -> b_end (g' from) <> ENext None) /\
  (forall x, ~ In x (map snd r) -> b_end (g' x) = b_end (g x)) /\
  (forall x, b_state (g' x) = true -> b_state (g x) = true \/ exists n, In n (map fst r) /\ In (n, x) (g_lbl s)).
Proof.
  intros I ND. induction r as [|[n from] r IH]; intros g g' Hi Hn F He H; cbn [resolve] in H.
  - injection H as <-. split; [exact F|split; [intros n from []|split; [reflexivity|now left]]].
  - destruct (assoc n (g_lbl s)) as [b|] eqn:A; [|discriminate]. cbn in Hn. inversion Hn as [|? ? N1 N2]; subst.
    change (resolve (g_lbl s) r (rstep g from b) = Some g') in H.
    assert (He' : forall m x, In (m, x) r -> b_end (rstep g from b x) = ENext None).
    { intros m x Hm. rewrite rstep_end_other; [apply (He m); now right|]. intros ->. apply N1. apply in_map_iff. now exists (m, from). }
    destruct (IH (rstep g from b) g') as [K1 [K2 [K3 K4]]]; [intros x Hx; apply Hi; now right|exact N2| |exact He'|exact H|].
    + eapply rstep_fut; [exact I|exact ND|exact F|apply Hi; now left|exact A|apply (He n); now left].
    + split; [exact K1|]. split; [|split].
      * intros m x [[= <- <-]|Hm]; [|now apply (K2 m)]. rewrite K3 by exact N1. rewrite rstep_end_same. discriminate.
      * intros x Nx. cbn in Nx. rewrite K3 by tauto. apply rstep_end_other. intros ->. apply Nx. now left.
      * intros x S. destruct (K4 x S) as [S1|[m [M1 M2]]].
        -- destruct (Nat.eq_dec x b) as [ ->|Nx]; [right; exists n; split; [now left|now apply assoc_in]|].
           rewrite rstep_state_other in S1 by exact Nx. now left.
        -- right. exists m. split; [now right|exact M2].
Qed.

(** * Promoting the blocks after conditionals *)
Lemma set_state_end g b v x : b_end (set_state g b v x) = b_end (g x).
Proof. gs. destruct (Nat.eq_dec x b); [subst; now rewrite gset_same|now rewrite gset_other]. Qed.

Lemma prevent_ok s r unr : Inv s -> forall bs g ch g' ch', Fut noE s (upd_blk s g) -> prevent r unr bs g ch = Some (g', ch') ->
  Fut noE s (upd_blk s g') /\ (forall x, b_end (g' x) = b_end (g x)) /\ (forall x, b_ins (g' x) = b_ins (g x)) /\ (forall x, b_noskip (g' x) = b_noskip (g x)) /\
  (forall x, b_state (g x) = true -> b_state (g' x) = true) /\
  (forall x, b_state (g' x) = true -> b_state (g x) = true \/ prom (g_blk (upd_blk s g)) x) /\
  (ch' = false -> ch = false /\ forall x, b_state (g' x) = b_state (g x)) /\
  (forall b e ib fi it eb fe et af, In b bs -> unr b = false -> b_end (g b) = EIf e ib fi it eb fe et af -> b_state (g' af) = false ->
     fi = negb (dead r it) /\ fe = negb (dead r et) /\ (dead r it && dead r et = false)).
Proof.
  intros I. induction bs as [|b bs IH]; intros g ch g' ch' F H; cbn [prevent] in H.
  - injection H as <- <-. split; [exact F|]. split; [auto|]. split; [auto|]. split; [auto|]. split; [auto|]. split; [auto|]. split; [auto|]. intros ? ? ? ? ? ? ? ? ? [].
  - assert (SK : prevent r unr bs g ch = Some (g', ch') -> (unr b = false -> match b_end (g b) with EIf _ _ _ _ _ _ _ af => b_state (g af) = true | _ => True end) ->
      Fut noE s (upd_blk s g') /\ (forall x, b_end (g' x) = b_end (g x)) /\ (forall x, b_ins (g' x) = b_ins (g x)) /\ (forall x, b_noskip (g' x) = b_noskip (g x)) /\
      (forall x, b_state (g x) = true -> b_state (g' x) = true) /\
      (forall x, b_state (g' x) = true -> b_state (g x) = true \/ prom (g_blk (upd_blk s g)) x) /\
      (ch' = false -> ch = false /\ forall x, b_state (g' x) = b_state (g x)) /\
      (forall b0 e ib fi it eb fe et af, In b0 (b :: bs) -> unr b0 = false -> b_end (g b0) = EIf e ib fi it eb fe et af -> b_state (g' af) = false ->
        fi = negb (dead r it) /\ fe = negb (dead r et) /\ (dead r it && dead r et = false))).
    { intros H0 HN. destruct (IH g ch g' ch' F H0) as [K1 [K2 [K3 [K4 [K5 [K6 [K7 K8]]]]]]].
      split; [exact K1|]. split; [exact K2|]. split; [exact K3|]. split; [exact K4|]. split; [exact K5|]. split; [exact K6|]. split; [exact K7|].
      intros b0 e ib fi it eb fe et af [ <-|Hb] U E S; [|eapply K8; eassumption]. specialize (HN U). rewrite E in HN.
      rewrite (K5 af HN) in S. discriminate. }
    destruct (unr b) eqn:U; [apply SK; [exact H|discriminate]|].
    destruct (b_end (g b)) as [|n|e ib fi it eb fe et af|e cs af|e it af|d w n|c sv cid go rt|c rets] eqn:E; try (apply SK; [exact H|trivial]; fail).
    destruct (b_state (g af)) eqn:Sa; [apply SK; [exact H|auto]|].
    destruct ((dead r it && fi) || (dead r et && fe)) eqn:AS; [discriminate|].
    set (v := (negb (dead r it) && negb fi) || (negb (dead r et) && negb fe) || (dead r it && dead r et)) in *.
    apply orb_false_iff in AS. destruct AS as [AS1 AS2].
    assert (PV : v = true -> fi = false \/ fe = false).
    { unfold v. destruct (dead r it), (dead r et), fi, fe; cbn in *; auto; discriminate. }
    assert (SS : forall x, b_state (set_state g af v x) = true -> b_state (g x) = true \/ (x = af /\ v = true)).
    { intros x Hx. gs. destruct (Nat.eq_dec x af); [subst; rewrite gset_same in Hx; cbn in Hx; now right|rewrite gset_other in Hx by assumption; now left]. }
    assert (SM : forall x, b_state (g x) = true -> b_state (set_state g af v x) = true).
    { intros x Hx. gs. destruct (Nat.eq_dec x af); [subst; congruence|now rewrite gset_other]. }
    assert (PRx : v = true -> prom g af) by (intros Hv; exists b, e, ib, fi, it, eb, fe, et; split; [exact E|now apply PV]).
    assert (SI : forall x, b_ins (set_state g af v x) = b_ins (g x)).
    { intros x. gs. destruct (Nat.eq_dec x af); [subst; now rewrite gset_same|now rewrite gset_other]. }
    assert (SN : forall x, b_noskip (set_state g af v x) = b_noskip (g x)).
    { intros x. gs. destruct (Nat.eq_dec x af); [subst; now rewrite gset_same|now rewrite gset_other]. }
    assert (F1 : Fut noE s (upd_blk s (set_state g af v))).
    { destruct F. cbn in *. constructor; cbn; auto.
      - intros x L N. rewrite SI, set_state_end. destruct (f_seal x L N) as [A1 A2]. split; [exact A1|].
        destruct A2 as [A2|[A2 A3]]; [now left|right]. split; [exact A2|]. intros m Hm. destruct (A3 m Hm) as [y [Y1 [Y2 Y3]]]. exists y. auto.
      - intros x L N. rewrite set_state_end. auto.
      - intros x L. rewrite SI. auto.
      - intros x L. rewrite SN. auto.
      - intros x L S. destruct (SS x S) as [S1|[ -> Hv]]; [auto|]. right; right; left. apply f_prom; [exact L|]. now apply PRx.
      - intros x L [y [t [a1 [a2 [a3 [a4 [a5 [a6 [H1 H2]]]]]]]]]. apply f_prom; [exact L|]. rewrite set_state_end in H1.
        exists y, t, a1, a2, a3, a4, a5, a6. auto. }
    destruct (IH (set_state g af v) (ch || v) g' ch' F1 H) as [K1 [K2 [K3 [K4 [K5 [K6 [K7 K8]]]]]]].
    split; [exact K1|]. split; [intros x; rewrite K2; apply set_state_end|]. split; [intros x; rewrite K3; apply SI|].
    split; [intros x; rewrite K4; apply SN|]. split; [intros x Hx; apply K5; now apply SM|].
    split; [|split].
    + intros x Hx. destruct (K6 x Hx) as [S1|P1].
      * destruct (SS x S1) as [S2|[ -> Hv]]; [now left|right]. cbn. now apply PRx.
      * right. cbn in *. destruct P1 as [y [t [a1 [a2 [a3 [a4 [a5 [a6 [H1 H2]]]]]]]]]. rewrite set_state_end in H1.
        exists y, t, a1, a2, a3, a4, a5, a6. auto.
    + intros C. destruct (K7 C) as [C1 C2]. apply orb_false_iff in C1. destruct C1 as [C1 Cv]. split; [exact C1|].
      intros x. rewrite C2. gs. destruct (Nat.eq_dec x af); [subst; rewrite gset_same; cbn; congruence|now rewrite gset_other].
    + intros b0 e0 ib0 fi0 it0 eb0 fe0 et0 af0 Hb U0 E0 S0.
      destruct (Nat.eq_dec b0 b) as [ ->|Nb].
      * rewrite E in E0. injection E0 as <- <- <- <- <- <- <- <-.
        assert (Hv : v = false).
        { destruct v eqn:Ev; [|reflexivity]. rewrite (K5 af) in S0; [discriminate|]. gs. rewrite gset_same. reflexivity. }
        unfold v in Hv. destruct (dead r it), (dead r et), fi, fe; cbn in *; try discriminate; auto.
      * destruct Hb as [Hb|Hb]; [congruence|]. apply (K8 b0 e0 ib0 fi0 it0 eb0 fe0 et0 af0 Hb U0); [rewrite set_state_end; exact E0|exact S0].
Qed.
