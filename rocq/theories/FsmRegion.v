(** The layout gives what is needed for the code written to follow the graph. *)
From Coq Require Import List Bool Arith ZArith Lia.
Import ListNotations.
From Verif Require Import FsmModel FsmEmit FsmLayout.

(** A switch having a cycle boundary in one of its cases has a default. *)
Definition has_default {A} (cs : list (option Z * A)) : bool := existsb (fun c => match fst c with None => true | Some _ => false end) cs.
Fixpoint covered (st : stmt) : bool :=
  match st with
  | SBlock l => forallb covered l
  | SIf _ l => forallb covered l
  | SIfElse _ l1 l2 => forallb covered l1 && forallb covered l2
  | SSwitch _ cs => (forallb (fun c => timelesss (snd c)) cs || has_default cs) && forallb (fun c => forallb covered (snd c)) cs
  | SWhile _ l => forallb covered l
  | _ => true
  end.
Definition covereds (l : list stmt) : bool := forallb covered l.

Lemma pick_has_default {A} v (cs : list (option Z * A)) : has_default cs = true -> pick v cs <> None.
Proof.
  intros H. unfold pick. destruct (pick_case v cs); [discriminate|]. unfold has_default in H. induction cs as [|[[z|] a] cs IH]; cbn in *; [discriminate|auto|discriminate].
Qed.
Lemma has_default_fst {A B} (cs : list (option Z * A)) (bs : list (option Z * B)) : map fst bs = map fst cs -> has_default bs = has_default cs.
Proof.
  revert bs. induction cs as [|[v a] cs IH]; intros [|[w b] bs] H; cbn in *; try discriminate; [reflexivity|].
  injection H as -> H. unfold has_default in *. cbn. now rewrite (IH bs H).
Qed.

Section Region.
  Variable G : graph.
  Variable Lb : nat -> nat -> Prop.
  Hypothesis nounres : forall b, b_end (G b) <> ENext None.

  Notation full := (full G).
  Notation nexts := (nexts G).
  Notation fresh := (fresh G).
  Notation tr := (tr G Lb).
  Notation trl := (trl G Lb).
  Notation trb := (trb G Lb).
  Notation trcs := (trcs G Lb).
  Notation succs := (succs G).

  Record Rg (own : nat -> Prop) (lo hi : nat) (ex : nat -> Prop) (R : nat -> nat -> Prop) : Prop := {
    g_dom : forall x y, R x y -> own x /\ own y /\ lo <= y < hi;
    g_start : forall x y, own x -> In y (branches (b_end (G x))) -> R x y;
    g_after : forall x a, own x -> after_of (b_end (G x)) = Some a -> ~ R x a;
    g_closed : forall x a y z, own x -> after_of (b_end (G x)) = Some a -> R x y -> In z (succs y) -> b_state (G z) = false -> R x z \/ z = a;
    g_nest : forall x a y a', own x -> after_of (b_end (G x)) = Some a -> R x y -> after_of (b_end (G y)) = Some a' ->
       (b_state (G a') = false -> R x a') /\ (forall z, R y z -> R x z);
    g_in : forall x z, own x -> In z (succs x) -> b_state (G z) = true \/ lo <= z < hi \/ ex z;
    g_af : forall x a, own x -> after_of (b_end (G x)) = Some a -> b_state (G a) = true \/ lo <= a < hi
  }.

  Lemma rg_weaken own own' lo hi lo' hi' (ex ex' : nat -> Prop) R : Rg own lo hi ex R -> (forall x, own x <-> own' x) -> lo' <= lo -> hi <= hi' ->
    (forall z, ex z -> b_state (G z) = true \/ lo' <= z < hi' \/ ex' z) -> Rg own' lo' hi' ex' R.
  Proof.
    intros H E L1 L2 X. destruct H. constructor.
    - intros x y Rxy. destruct (g_dom0 x y Rxy) as [A1 [A2 A3]]. rewrite <- !E. split; [exact A1|]. split; [exact A2|lia].
    - intros x y O. rewrite <- E in O. auto.
    - intros x a O. rewrite <- E in O. auto.
    - intros x a y z O. rewrite <- E in O. eauto.
    - intros x a y z O. rewrite <- E in O. eauto.
    - intros x z O I. rewrite <- E in O. destruct (g_in0 x z O I) as [A|[A|A]]; [now left|right; left; lia|auto].
    - intros x a O I. rewrite <- E in O. destruct (g_af0 x a O I) as [A|A]; [now left|right; lia].
  Qed.

  Lemma rg_union own1 own2 lo1 hi1 lo2 hi2 lo hi ex R1 R2 : Rg own1 lo1 hi1 ex R1 -> Rg own2 lo2 hi2 ex R2 -> (forall x, own1 x -> own2 x -> False) ->
    lo <= lo1 -> hi1 <= hi -> lo <= lo2 -> hi2 <= hi -> Rg (fun x => own1 x \/ own2 x) lo hi ex (fun x y => R1 x y \/ R2 x y).
  Proof.
    intros A B D L1 L2 L3 L4.
    assert (N1 : forall x y, own1 x -> R2 x y -> False) by (intros x y O H; destruct (g_dom _ _ _ _ _ B x y H) as [O2 _]; eauto).
    assert (N2 : forall x y, own2 x -> R1 x y -> False) by (intros x y O H; destruct (g_dom _ _ _ _ _ A x y H) as [O2 _]; eauto).
    constructor.
    - intros x y [H|H].
      + destruct (g_dom _ _ _ _ _ A x y H) as [O1 [O2 O3]]. split; [now left|]. split; [now left|lia].
      + destruct (g_dom _ _ _ _ _ B x y H) as [O1 [O2 O3]]. split; [now right|]. split; [now right|lia].
    - intros x y [O|O] H; [left; now apply (g_start _ _ _ _ _ A)|right; now apply (g_start _ _ _ _ _ B)].
    - intros x a [O|O] H [H1|H1]; [exact (g_after _ _ _ _ _ A x a O H H1)|eauto|eauto|exact (g_after _ _ _ _ _ B x a O H H1)].
    - intros x a y z [O|O] H [H1|H1] Iz Sz; try (exfalso; eauto; fail).
      + destruct (g_closed _ _ _ _ _ A x a y z O H H1 Iz Sz); auto.
      + destruct (g_closed _ _ _ _ _ B x a y z O H H1 Iz Sz); auto.
    - intros x a y a' [O|O] H [H1|H1] Ha'; try (exfalso; eauto; fail).
      + destruct (g_nest _ _ _ _ _ A x a y a' O H H1 Ha') as [K1 K2]. split; [intros S; left; auto|]. intros z [Hz|Hz]; [left; auto|].
        exfalso. destruct (g_dom _ _ _ _ _ A x y H1) as [_ [Oy _]]. eauto.
      + destruct (g_nest _ _ _ _ _ B x a y a' O H H1 Ha') as [K1 K2]. split; [intros S; right; auto|]. intros z [Hz|Hz]; [|right; auto].
        exfalso. destruct (g_dom _ _ _ _ _ B x y H1) as [_ [Oy _]]. eauto.
    - intros x z [O|O] H; [destruct (g_in _ _ _ _ _ A x z O H) as [K|[K|K]]|destruct (g_in _ _ _ _ _ B x z O H) as [K|[K|K]]]; auto; right; left; lia.
    - intros x z [O|O] H; [destruct (g_af _ _ _ _ _ A x z O H) as [K|K]|destruct (g_af _ _ _ _ _ B x z O H) as [K|K]]; auto; right; lia.
  Qed.

  Lemma rg_simple (own : nat -> Prop) lo hi ex : (forall x, own x -> after_of (b_end (G x)) = None) ->
    (forall x z, own x -> In z (succs x) -> b_state (G z) = true \/ lo <= z < hi \/ ex z) -> Rg own lo hi ex (fun _ _ => False).
  Proof.
    intros A I. constructor; try tauto.
    - intros x y O H. specialize (A x O). destruct (b_end (G x)); cbn in *; try discriminate; destruct H.
    - intros x a O H. rewrite (A x O) in H. discriminate.
  Qed.

  Lemma rg_head own lo hi ex R b a (S : nat -> Prop) : Rg own lo hi ex R -> ~ own b -> after_of (b_end (G b)) = Some a ->
    (forall y, S y -> own y /\ lo <= y < hi) -> (forall y, In y (branches (b_end (G b))) -> S y) -> ~ S a ->
    (forall y z, S y -> In z (succs y) -> b_state (G z) = false -> S z \/ z = a) ->
    (forall y a', S y -> after_of (b_end (G y)) = Some a' -> b_state (G a') = false -> S a') -> (forall y z, S y -> R y z -> S z) ->
    (forall z, In z (succs b) -> b_state (G z) = true \/ lo <= z < hi \/ ex z) -> (b_state (G a) = true \/ lo <= a < hi) ->
    Rg (fun x => own x \/ x = b) lo hi ex (fun x y => R x y \/ (x = b /\ S y)).
  Proof.
    intros A Nb Ha S1 S2 S3 S4 S5 S6 I1 I2.
    assert (RB : forall y, ~ R b y) by (intros y H; destruct (g_dom _ _ _ _ _ A b y H) as [X _]; contradiction).
    constructor.
    - intros x y [H|[ -> H]].
      + destruct (g_dom _ _ _ _ _ A x y H) as [O1 [O2 O3]]. auto.
      + destruct (S1 y H). auto.
    - intros x y [O| ->] H; [left; now apply (g_start _ _ _ _ _ A)|right; auto].
    - intros x a0 [O| ->] H [H1|[H1 H2]]; [exact (g_after _ _ _ _ _ A x a0 O H H1)|subst; contradiction|exact (RB _ H1)|]. rewrite Ha in H. injection H as <-. contradiction.
    - intros x a0 y z [O| ->] H [H1|[H1 H2]] Iz Sz.
      + destruct (g_closed _ _ _ _ _ A x a0 y z O H H1 Iz Sz); auto.
      + subst. contradiction.
      + destruct (RB _ H1).
      + rewrite Ha in H. injection H as <-. destruct (S4 y z H2 Iz Sz); auto.
    - intros x a0 y a' [O| ->] H [H1|[H1 H2]] Ha'.
      + destruct (g_nest _ _ _ _ _ A x a0 y a' O H H1 Ha') as [K1 K2]. split; [auto|]. intros z [Hz|[-> Hz]]; [auto|].
        exfalso. destruct (g_dom _ _ _ _ _ A x b H1) as [_ [Oy _]]. contradiction.
      + subst. contradiction.
      + destruct (RB _ H1).
      + rewrite Ha in H. injection H as <-. split; [intros Sa; right; eauto|]. intros z [Hz|[ -> Hz]]; [right; eauto|].
        destruct (S1 b H2). contradiction.
    - intros x z [O| ->] H; [exact (g_in _ _ _ _ _ A x z O H)|auto].
    - intros x z [O| ->] H; [exact (g_af _ _ _ _ _ A x z O H)|]. rewrite Ha in H. injection H as <-. auto.
  Qed.

  Definition own2 (lo hi b b' : nat) (x : nat) : Prop := (x = b \/ lo <= x < hi) /\ x <> b'.
  Definition noX : nat -> Prop := fun _ => False.

  Lemma succs_next b x : nexts b x -> succs b = [x].
  Proof. unfold FsmLayout.nexts, FsmEmit.succs. intros ->. reflexivity. Qed.
  Lemma after_next b x : nexts b x -> after_of (b_end (G b)) = None.
  Proof. unfold FsmLayout.nexts. intros ->. reflexivity. Qed.

  Lemma simple_next b x lo hi (ex : nat -> Prop) : nexts b x -> b_state (G x) = true \/ lo <= x < hi \/ ex x -> Rg (fun y => y = b) lo hi ex (fun _ _ => False).
  Proof.
    intros N H. apply rg_simple.
    - intros y ->. now apply after_next with x.
    - intros y z -> Hz. rewrite (succs_next b x N) in Hz. destruct Hz as [ <-|[]]. exact H.
  Qed.

  Ltac own := intros ?x; unfold own2; split; [intros; lia|intros; lia].

  Lemma region_ok :
    (forall brk st lo hi b i b' i', tr brk st lo hi b i b' i' -> b < lo -> exists R, Rg (own2 lo hi b b') lo hi noX R) /\
    (forall brk l lo hi b i b' i', trl brk l lo hi b i b' i' -> b < lo -> exists R, Rg (own2 lo hi b b') lo hi noX R) /\
    (forall brk l lo hi b i m, trb brk l lo hi b i m -> b < lo -> exists R, Rg (own2 lo hi b m) lo hi noX R) /\
    (forall brk af cs bs lo hi, trcs brk af cs bs lo hi -> af < lo -> exists R, Rg (fun x => lo <= x < hi) lo hi (fun z => z = af) R /\
       (forall x, In x (map snd bs) -> lo <= x < hi)).
  Proof.
    destruct (tr_exit G Lb) as [X1 [X2 [X3 X4]]].
    apply tr_mutind.
    - (* assign *) intros. eexists. eapply rg_weaken with (own := fun _ => False) (lo := lo) (hi := lo) (ex := noX); [apply rg_simple; tauto| |lia|lia|intros ? []]. own.
    - (* return *) intros. eexists. eapply rg_weaken with (own := fun _ => False) (lo := lo) (hi := lo) (ex := noX); [apply rg_simple; tauto| |lia|lia|intros ? []]. own.
    - (* block *) intros brk l lo hi b i m T IH L. exact (IH L).
    - (* if *) intros brk e l lo m b i ia Fb Eb F1 F2 T IH Fi Ni Fe Ne Nm Sm L.
      destruct (X3 _ _ _ _ _ _ _ T) as [Y1 Y2].
      destruct IH as [R IH]; [lia|].
      assert (U1 : Rg (fun x => own2 (S (S lo)) m lo ia x \/ x = ia) lo (S m) noX (fun x y => R x y \/ False)).
      { eapply rg_union with (lo2 := lo) (hi2 := S m); [exact IH|apply (simple_next ia m); [exact Ni|lia]| |lia|lia|lia|lia]. intros x [_ H] ->. congruence. }
      assert (U2 : Rg (fun x => (own2 (S (S lo)) m lo ia x \/ x = ia) \/ x = S lo) lo (S m) noX (fun x y => (R x y \/ False) \/ False)).
      { eapply rg_union with (lo2 := lo) (hi2 := S m); [exact U1|apply (simple_next (S lo) m); [exact Ne|lia]| |lia|lia|lia|lia]. intros x [[H _]|H] ->; lia. }
      assert (U2' : Rg (fun x => lo <= x < m) lo (S m) noX (fun x y => (R x y \/ False) \/ False)).
      { eapply rg_weaken; [exact U2|own|lia|lia|intros ? []]. }
      exists (fun x y => ((R x y \/ False) \/ False) \/ (x = b /\ lo <= y < m)).
      eapply rg_weaken; [eapply (rg_head _ _ _ _ _ b m (fun y => lo <= y < m) U2')|own|lia|lia|intros ? []].
      + lia.
      + now rewrite Eb.
      + lia.
      + rewrite Eb. cbn. lia.
      + lia.
      + intros y z Hy Hz Sz. destruct (Nat.eq_dec y ia) as [ ->|N1]; [rewrite (succs_next _ _ Ni) in Hz; destruct Hz as [ <-|[]]; now right|].
        destruct (Nat.eq_dec y (S lo)) as [ ->|N2]; [rewrite (succs_next _ _ Ne) in Hz; destruct Hz as [ <-|[]]; now right|].
        destruct (g_in _ _ _ _ _ IH y z) as [K|[K|[]]]; [unfold own2; lia|exact Hz|congruence|lia].
      + intros y a' Hy Ha Sa. destruct (Nat.eq_dec y ia) as [ ->|N1]; [rewrite (after_next _ _ Ni) in Ha; discriminate|].
        destruct (Nat.eq_dec y (S lo)) as [ ->|N2]; [rewrite (after_next _ _ Ne) in Ha; discriminate|].
        destruct (g_af _ _ _ _ _ IH y a') as [K|K]; [unfold own2; lia|exact Ha|congruence|lia].
      + intros y z Hy [[Hr|[]]|[]]. destruct (g_dom _ _ _ _ _ IH y z Hr) as [_ [_ K]]. lia.
      + unfold FsmEmit.succs. rewrite Eb. cbn. lia.
      + lia.
    - (* if else *) intros brk e l1 l2 lo m1 m b i ia ea Fb Eb F1 F2 T1 IH1 Fi Ni T2 IH2 Fe Ne Nm Sm L.
      destruct (X3 _ _ _ _ _ _ _ T1) as [Y1 Y2]. destruct (X3 _ _ _ _ _ _ _ T2) as [Y3 Y4].
      destruct IH1 as [R1 IH1]; [lia|]. destruct IH2 as [R2 IH2]; [lia|].
      assert (U0 : Rg (fun x => own2 (S (S lo)) m1 lo ia x \/ own2 m1 m (S lo) ea x) lo (S m) noX (fun x y => R1 x y \/ R2 x y)).
      { eapply rg_union; [exact IH1|exact IH2|unfold own2; lia|lia|lia|lia|lia]. }
      assert (U1 : Rg (fun x => (own2 (S (S lo)) m1 lo ia x \/ own2 m1 m (S lo) ea x) \/ x = ia) lo (S m) noX (fun x y => (R1 x y \/ R2 x y) \/ False)).
      { eapply rg_union with (lo2 := lo) (hi2 := S m); [exact U0|apply (simple_next ia m); [exact Ni|lia]|unfold own2; lia|lia|lia|lia|lia]. }
      assert (U2 : Rg (fun x => ((own2 (S (S lo)) m1 lo ia x \/ own2 m1 m (S lo) ea x) \/ x = ia) \/ x = ea) lo (S m) noX (fun x y => ((R1 x y \/ R2 x y) \/ False) \/ False)).
      { eapply rg_union with (lo2 := lo) (hi2 := S m); [exact U1|apply (simple_next ea m); [exact Ne|lia]|unfold own2; lia|lia|lia|lia|lia]. }
      assert (U2' : Rg (fun x => lo <= x < m) lo (S m) noX (fun x y => ((R1 x y \/ R2 x y) \/ False) \/ False)).
      { eapply rg_weaken; [exact U2|own|lia|lia|intros ? []]. }
      eexists. eapply rg_weaken; [eapply (rg_head _ _ _ _ _ b m (fun y => lo <= y < m) U2')|own|lia|lia|intros ? []].
      + lia.
      + now rewrite Eb.
      + lia.
      + rewrite Eb. cbn. lia.
      + lia.
      + intros y z Hy Hz Sz. destruct (Nat.eq_dec y ia) as [ ->|N1]; [rewrite (succs_next _ _ Ni) in Hz; destruct Hz as [ <-|[]]; now right|].
        destruct (Nat.eq_dec y ea) as [ ->|N2]; [rewrite (succs_next _ _ Ne) in Hz; destruct Hz as [ <-|[]]; now right|].
        destruct (g_in _ _ _ _ _ U0 y z) as [K|[K|[]]]; [unfold own2; lia|exact Hz|congruence|].
        destruct (Nat.eq_dec z m); [now right|left; lia].
      + intros y a' Hy Ha Sa. destruct (Nat.eq_dec y ia) as [ ->|N1]; [rewrite (after_next _ _ Ni) in Ha; discriminate|].
        destruct (Nat.eq_dec y ea) as [ ->|N2]; [rewrite (after_next _ _ Ne) in Ha; discriminate|].
        assert (O : own2 (S (S lo)) m1 lo ia y \/ own2 m1 m (S lo) ea y) by (unfold own2; lia).
        destruct O as [O|O]; [destruct (g_af _ _ _ _ _ IH1 y a' O Ha) as [K|K]|destruct (g_af _ _ _ _ _ IH2 y a' O Ha) as [K|K]]; try congruence; lia.
      + intros y z Hy [[[Hr|Hr]|[]]|[]]; [destruct (g_dom _ _ _ _ _ IH1 y z Hr) as [_ [_ K]]|destruct (g_dom _ _ _ _ _ IH2 y z Hr) as [_ [_ K]]]; lia.
      + unfold FsmEmit.succs. rewrite Eb. cbn. lia.
      + lia.
    - (* switch *) intros brk e cs bs lo hi b i Fb Eb T IH Nm Sm L.
      pose proof (X4 _ _ _ _ _ _ T) as Y. destruct IH as [R [IH HB]]; [lia|].
      assert (U : Rg (fun x => S lo <= x < hi) lo (Nat.max (S lo) hi) noX R).
      { eapply rg_weaken; [exact IH|tauto|lia|lia|]. intros z ->. lia. }
      eexists. eapply rg_weaken; [eapply (rg_head _ _ _ _ _ b lo (fun y => S lo <= y < hi) U)|own|lia|lia|intros ? []].
      + lia.
      + now rewrite Eb.
      + lia.
      + rewrite Eb. exact HB.
      + lia.
      + intros y z Hy Hz Sz. destruct (g_in _ _ _ _ _ IH y z Hy Hz) as [K|[K|K]]; [congruence|now left|now right].
      + intros y a' Hy Ha Sa. destruct (g_af _ _ _ _ _ IH y a' Hy Ha) as [K|K]; [congruence|exact K].
      + intros y z Hy Hr. now destruct (g_dom _ _ _ _ _ IH y z Hr) as [_ [_ K]].
      + unfold FsmEmit.succs. rewrite Eb. intros z [ <-|Hz]; [lia|]. specialize (HB z Hz). lia.
      + lia.
    - (* while *) intros brk e l lo hi b i il Fb Nb Sl Kl Fl El F1 Kf Sa T IH Fi Ni L.
      destruct (X3 _ _ _ _ _ _ _ T) as [Y1 Y2]. destruct IH as [R IH]; [lia|].
      assert (U1 : Rg (fun x => own2 (S (S (S lo))) hi (S lo) il x \/ x = il) lo hi noX (fun x y => R x y \/ False)).
      { eapply rg_union with (lo2 := lo) (hi2 := hi); [exact IH|apply (simple_next il lo); [exact Ni|lia]|unfold own2; lia|lia|lia|lia|lia]. }
      assert (U2 : Rg (fun x => (own2 (S (S (S lo))) hi (S lo) il x \/ x = il) \/ x = b) lo hi noX (fun x y => (R x y \/ False) \/ False)).
      { eapply rg_union with (lo2 := lo) (hi2 := hi); [exact U1|apply (simple_next b lo); [exact Nb|lia]|unfold own2; lia|lia|lia|lia|lia]. }
      eexists. eapply rg_weaken; [eapply (rg_head _ _ _ _ _ lo (S (S lo)) (fun y => y = S lo \/ S (S (S lo)) <= y < hi) U2)|own|lia|lia|intros ? []].
      + unfold own2. lia.
      + now rewrite El.
      + unfold own2. lia.
      + rewrite El. cbn. lia.
      + lia.
      + intros y z Hy Hz Sz. destruct (Nat.eq_dec y il) as [ ->|N1]; [rewrite (succs_next _ _ Ni) in Hz; destruct Hz as [ <-|[]]; congruence|].
        destruct (g_in _ _ _ _ _ IH y z) as [K|[K|[]]]; [unfold own2; lia|exact Hz|congruence|lia].
      + intros y a' Hy Ha Ss. destruct (Nat.eq_dec y il) as [ ->|N1]; [rewrite (after_next _ _ Ni) in Ha; discriminate|].
        destruct (g_af _ _ _ _ _ IH y a') as [K|K]; [unfold own2; lia|exact Ha|congruence|lia].
      + intros y z Hy [[Hr|[]]|[]]. destruct (g_dom _ _ _ _ _ IH y z Hr) as [_ [_ K]]. lia.
      + unfold FsmEmit.succs. rewrite El. cbn. lia.
      + lia.
    - (* break *) intros t lo b i Fb Nb St F L. eexists. eapply rg_weaken; [apply (simple_next b t lo (S lo) noX); [exact Nb|auto]|own|lia|lia|intros ? []].
    - (* step *) intros brk lo b i Fb Nb St K L. eexists. eapply rg_weaken; [apply (simple_next b lo lo (S lo) noX); [exact Nb|auto]|own|lia|lia|intros ? []].
    - (* label *) intros brk n lo b i Fb Nb K Hl L. eexists. eapply rg_weaken; [apply (simple_next b lo lo (S lo) noX); [exact Nb|lia]|own|lia|lia|intros ? []].
    - (* goto *) intros brk n lo b i Fb [Nb|[x [Nb [_ Sx]]]] F L; [destruct (nounres b Nb)|].
      eexists. eapply rg_weaken; [apply (simple_next b x lo (S lo) noX); [exact Nb|auto]|own|lia|lia|intros ? []].
    - (* join *) intros brk d rb lo b i rest Fb Nb Sl Kl Fl El Sn Kn Hi L.
      eexists. eapply rg_weaken; [eapply rg_union with (own1 := fun x => x = b) (own2 := fun x => x = lo) (lo1 := lo) (hi1 := S (S lo)) (lo2 := lo) (hi2 := S (S lo)) (lo := lo) (hi := S (S lo)) (ex := noX);
        [apply (simple_next b lo); [exact Nb|auto]|apply rg_simple|lia|lia|lia|lia|lia]|own|lia|lia|intros ? []].
      + intros x ->. now rewrite El.
      + intros x z ->. unfold FsmEmit.succs. rewrite El. intros [].
    - (* nil *) intros. eexists. eapply rg_weaken with (own := fun _ => False) (lo := lo) (hi := lo) (ex := noX); [apply rg_simple; tauto| |lia|lia|intros ? []]. own.
    - (* cons *) intros brk x r lo m hi b i b1 i1 b2 i2 T1 IH1 T2 IH2 L.
      destruct (X1 _ _ _ _ _ _ _ _ T1) as [Y1 Y2]. destruct (X2 _ _ _ _ _ _ _ _ T2) as [Y3 Y4].
      destruct IH1 as [R1 IH1]; [lia|]. destruct IH2 as [R2 IH2]; [lia|].
      eexists. eapply rg_weaken; [eapply rg_union with (lo := lo) (hi := hi); [exact IH1|exact IH2|unfold own2; lia|lia|lia|lia|lia]|own|lia|lia|intros ? []].
    - (* braces *) intros brk l lo m b i a j Fb Nb F1 T IH Fa Na F2 L.
      destruct (X2 _ _ _ _ _ _ _ _ T) as [Y1 Y2]. destruct IH as [R IH]; [lia|].
      assert (U1 : Rg (fun x => own2 (S lo) m lo a x \/ x = a) lo (S m) noX (fun x y => R x y \/ False)).
      { eapply rg_union with (lo2 := lo) (hi2 := S m); [exact IH|apply (simple_next a m); [exact Na|lia]|unfold own2; lia|lia|lia|lia|lia]. }
      eexists. eapply rg_weaken; [eapply rg_union with (lo := lo) (hi := S m) (lo2 := lo) (hi2 := S m); [exact U1|apply (simple_next b lo); [exact Nb|lia]|unfold own2; lia|lia|lia|lia|lia]|own|lia|lia|intros ? []].
    - (* no case *) intros. eexists. split; [eapply rg_weaken with (own := fun _ => False) (lo := lo) (hi := lo) (ex := noX); [apply rg_simple; tauto| |lia|lia|intros ? []]; own|intros x []].
    - (* case *) intros brk af v l cs bs lo m hi a F T IH Fa Na T2 IH2 L.
      destruct (X3 _ _ _ _ _ _ _ T) as [Y1 Y2]. pose proof (X4 _ _ _ _ _ _ T2) as Y3.
      destruct IH as [R IH]; [lia|]. destruct IH2 as [R2 [IH2 HB]]; [lia|].
      assert (U1 : Rg (fun x => own2 (S lo) m lo a x \/ x = a) lo hi (fun z => z = af) (fun x y => R x y \/ False)).
      { eapply rg_union with (lo1 := lo) (hi1 := hi) (lo2 := lo) (hi2 := hi); [eapply rg_weaken; [exact IH|intros ?; split; intros ?; eassumption|lia|lia|intros ? []]|apply (simple_next a af); [exact Na|auto]|unfold own2; lia|lia|lia|lia|lia]. }
      eexists. split.
      + eapply rg_weaken; [eapply rg_union with (lo := lo) (hi := hi); [exact U1|exact IH2|unfold own2; lia|lia|lia|lia|lia]|own|lia|lia|auto].
      + cbn. intros x [ <-|Hx]; [lia|]. specialize (HB x Hx). lia.
  Qed.
End Region.
