(** From the instructions to the numbered states: what the graph, the numbering and the code of the states satisfy. *)
From Coq Require Import List Bool Arith ZArith Lia.
Import ListNotations.
From Verif Require Import FsmModel FsmEmit FsmLayout FsmGather FsmBody FsmRenum FsmRegion FsmJoin.

(** The body seen as a list of instructions. *)
Definition body (unit : bool) (p : list stmt) : list stmt := if unit then [SBlock p] else p.

Lemma body_gotos unit p n : In n (gotoss (body unit p)) <-> In n (gotoss p).
Proof. destruct unit; cbn; [|tauto]. fold (gotoss p). rewrite app_nil_r. tauto. Qed.
Lemma body_nojump T unit p : nojumps T (body unit p) = nojumps T p.
Proof. destruct unit; cbn; [now rewrite andb_true_r|reflexivity]. Qed.
Lemma body_covered unit p : covereds (body unit p) = covereds p.
Proof. destruct unit; cbn; [now rewrite andb_true_r|reflexivity]. Qed.

Lemma nojumps_ext T T' : (forall n, memb n T = memb n T') -> forall l, nojumps T l = nojumps T' l.
Proof.
  intros E.
  assert (QE : forall l, quietl T l = quietl T' l).
  { intros l. unfold quietl. f_equal. induction (labelss l) as [|n r IH]; cbn; [reflexivity|]. now rewrite E, IH. }
  assert (NE : forall st, nojump T st = nojump T' st).
  { assert (FE : forall l, Forall (fun st => nojump T st = nojump T' st) l -> forallb (nojump T) l = forallb (nojump T') l).
    { intros l H. induction H as [|x l H1 H2 IH]; cbn [forallb]; [reflexivity|]. now rewrite H1, IH. }
    induction st using stmt_ind'; cbn [nojump]; try reflexivity.
    - now apply FE.
    - rewrite QE. now rewrite FE.
    - rewrite !QE. now rewrite !FE.
    - f_equal.
      + f_equal. clear H. induction cs as [|d cs IH]; cbn; [reflexivity|]. now rewrite QE, IH.
      + induction H as [|d cs H1 H2 IH]; cbn; [reflexivity|]. now rewrite FE, IH.
    - now apply FE. }
  unfold nojumps. induction l as [|x l IH]; cbn; [reflexivity|]. now rewrite NE, IH.
Qed.

Lemma body_gather fuel (unit : bool) p : (if unit then gather fuel None (SBlock p) 0 gst0 else gather_list fuel None p 0 gst0) = gather_list fuel None (body unit p) 0 gst0.
Proof. destruct unit; [|reflexivity]. cbn [body gather_list]. unfold obind. destruct (gather fuel None (SBlock p) 0 gst0) as [[c s]|]; reflexivity. Qed.

Lemma resolve_ins lbl : forall r g g', resolve lbl r g = Some g' -> forall x, b_ins (g' x) = b_ins (g x).
Proof.
  induction r as [|[n from] r IH]; intros g g' H x; cbn [resolve] in H; [now injection H as <-|].
  destruct (assoc n lbl) as [b|]; [|discriminate]. change (resolve lbl r (rstep g from b) = Some g') in H. rewrite (IH _ _ H). apply rstep_ins.
Qed.

Lemma pre0 : Pre None 0 gst0.
Proof.
  constructor; cbn.
  - constructor; cbn; try tauto.
    + intros x [b [e [ib [fi [it [eb [fe [et [H _]]]]]]]]]. unfold set_state, gset in H. destruct (Nat.eqb b 0); cbn in H; discriminate.
    + intros b L. unfold set_state, gset. destruct (Nat.eqb_spec b 0); [lia|]. auto.
  - tauto.
  - intros x [n []].
  - constructor.
  - intros b H. unfold set_state, gset in H. destruct (Nat.eqb b 0); cbn in H; discriminate.
  - lia.
  - reflexivity.
  - discriminate.
Qed.

(** Targets of jumps are states. *)
Section Targets.
  Variable G : graph.
  Variable Lb : nat -> nat -> Prop.
  Hypothesis nounres : forall b, b_end (G b) <> ENext None.
  Definition isT (n : nat) : Prop := exists x, Lb n x /\ b_state (G x) = true.
  Lemma targets_ok :
    (forall brk st lo hi b i b' i', tr G Lb brk st lo hi b i b' i' -> forall n, In n (gotos st) -> isT n) /\
    (forall brk l lo hi b i b' i', trl G Lb brk l lo hi b i b' i' -> forall n, In n (gotoss l) -> isT n) /\
    (forall brk l lo hi b i m, trb G Lb brk l lo hi b i m -> forall n, In n (gotoss l) -> isT n) /\
    (forall brk af cs bs lo hi, trcs G Lb brk af cs bs lo hi -> forall n, In n (flat_map (fun c => gotoss (snd c)) cs) -> isT n).
  Proof.
    apply tr_mutind; try (intros; cbn in *; contradiction).
    - intros brk l lo hi b i m Tr IH n Hn. exact (IH n Hn).
    - intros brk e l lo m b i ia Fb Eb F1 F2 Tr IH Fi Ni Fe Ne Nm Sm n Hn. exact (IH n Hn).
    - intros brk e l1 l2 lo m1 m b i ia ea Fb Eb F1 F2 T1 IH1 Fi Ni T2 IH2 Fe Ne Nm Sm n Hn. cbn in Hn. apply in_app_or in Hn. destruct Hn; auto.
    - intros brk e cs bs lo hi b i Fb Eb Tr IH Nm Sm n Hn. exact (IH n Hn).
    - intros brk e l lo hi b i il Fb Nb Sl Kl Fl El F1 Kf Sa Tr IH Fi Ni n Hn. exact (IH n Hn).
    - intros brk n lo b i Fb [Nb|[x [Nb [Hx Sx]]]] F m [ <-|[]]; [destruct (nounres b Nb)|]. now exists x.
    - intros brk x r lo m hi b i b1 i1 b2 i2 T1 IH1 T2 IH2 n Hn. cbn in Hn. apply in_app_or in Hn. destruct Hn; auto.
    - intros brk l lo m b i a j Fb Nb F1 Tr IH Fa Na F2 n Hn. exact (IH n Hn).
    - intros brk af v l cs bs lo m hi a F Tr IH Fa Na T2 IH2 n Hn. cbn in Hn. apply in_app_or in Hn. destruct Hn; auto.
  Qed.
End Targets.

(** Everything known of the graph and of the numbering of a program. *)
Record Good (fuel : nat) (prog : list stmt) (s : gst) (g : graph) (r : rst) (c ic : nat) : Prop := {
  o_tr : trl g (LbOf s) None prog 1 (g_next s) 0 0 c ic;
  o_full : full g c ic;
  o_end : b_end (g c) = ENone;
  o_c : c < g_next s;
  o_unres : forall b, b_end (g b) <> ENext None;
  o_out : forall b, g_next s <= b -> b_end (g b) = ENone;
  o_lbl : forall n x, LbOf s n x -> b_state (g x) = true -> In n (gotoss prog);
  o_tgt : forall n, In n (gotoss prog) -> exists x, LbOf s n x /\ b_state (g x) = true;
  o_ren : Ren fuel g r;
  o_prev : forall b e ib fi it eb fe et af, In b (r_vis r) -> b_end (g b) = EIf e ib fi it eb fe et af -> b_state (g af) = false ->
     (In it (r_vis r) -> fi = true) /\ (In et (r_vis r) -> fe = true) /\ (fi = true \/ fe = true);
  o_last : g_last s = c \/ b_state (g (g_last s)) = false;
  o_top : b_state (g 0) = true
}.


Theorem states_ok fuel unit p s g r : gather_body fuel unit p = Some s -> generate_states fuel s = Some (g, r) -> nojumps (gotoss p) p = true ->
  exists c ic, Good fuel (body unit p) s g r c ic.
Proof.
  intros GB GS NJ. unfold gather_body in GB. rewrite body_gather in GB. unfold obind in GB.
  destruct (gather_list fuel None (body unit p) 0 gst0) as [[c s0]|] eqn:GL; [|discriminate].
  destruct (resolve (g_lbl s0) (g_fwd s0) (g_blk s0)) as [g1|] eqn:RS; [|discriminate]. injection GB as <-.
  set (T := gotoss (body unit p)).
  assert (NJ' : nojumps T (body unit p) = true).
  { rewrite body_nojump. unfold T. rewrite <- NJ. clear.
    (* the same targets *)
    assert (E : forall n, memb n (gotoss (body unit p)) = memb n (gotoss p)).
    { intros n. destruct (memb n (gotoss p)) eqn:M; [apply memb_In; apply body_gotos; now apply memb_In|].
      apply memb_notIn. rewrite body_gotos. now apply memb_notIn. }
    apply (nojumps_ext _ _ E). }
  destruct (gather_list_ok fuel T (body unit p) None 0 gst0 c s0 GL pre0 NJ' (incl_refl _)) as [P TR].
  pose proof (p_inv _ _ _ _ _ _ _ P) as I0.
  destruct (resolve_ok s0 I0 (p_fnd _ _ _ _ _ _ _ P) (g_fwd s0) (g_blk s0) g1) as [F1 [R2 [R3 R4]]].
  { apply incl_refl. }
  { exact (p_fnd _ _ _ _ _ _ _ P). }
  { replace (upd_blk s0 (g_blk s0)) with s0 by (destruct s0; reflexivity). apply fut_refl. exact (i_lbl s0 I0). }
  { intros n from Hf. now apply (i_fwd s0 I0 n). }
  { exact RS. }
  pose proof (resolve_ins _ _ _ _ RS) as RI.
  unfold generate_states in GS.
  change (g_blk (upd_blk s0 g1)) with g1 in GS. change (g_next (upd_blk s0 g1)) with (g_next s0) in GS. unfold obind in GS.
  destruct (renumber fuel g1) as [r1|] eqn:RN; [|discriminate].
  destruct (prevent r1 (unreachable g1 r1) (seq 0 (g_next s0)) g1 false) as [[g2 ch]|] eqn:PV; [|discriminate].
  destruct (prevent_ok s0 r1 (unreachable g1 r1) I0 _ _ _ _ _ F1 PV) as [K1 [K2 [K3 [K4 [K5 [K6 [K7 K8]]]]]]].
  assert (S0 : b_state (g1 0) = true).
  { apply (f_state _ _ _ F1); [pose proof (f_next _ _ _ (p_fut _ _ _ _ _ _ _ P)); cbn in *; lia|].
    apply (f_state _ _ _ (p_fut _ _ _ _ _ _ _ P)); cbn; [lia|reflexivity]. }
  assert (REN1 : Ren fuel g1 r1) by (eapply loop_ren; [exact S0|exact RN]).
  assert (HVc : forall b d, In b (r_vis r1) -> In (Some d) (children (b_end (g1 b))) -> exists y, tgt fuel g1 d y /\ In y (r_vis r1)).
  { intros b d Vb Hd. destruct (n_child _ _ _ REN1 b (Some d) Vb Hd) as [d' [[= <-] Y]]. exact Y. }
  assert (REN : g = g2 /\ Ren fuel g2 r /\ forall b, In b (r_vis r) -> In b (r_vis r1)).
  { destruct ch.
    - destruct (renumber fuel g2) as [r2|] eqn:RN2; [|discriminate]. injection GS as <- <-. split; [reflexivity|].
      assert (X : Ren fuel g2 r2) by (eapply loop_ren; [apply K5; exact S0|exact RN2]). split; [exact X|].
      intros b. apply (n_min _ _ _ X (fun b => In b (r_vis r1))); [|exact (n_zero _ _ _ REN1)].
      exact (mono_closed g1 g2 fuel (fun b => In b (r_vis r1)) K2 K3 K4 K5 HVc).
    - injection GS as <- <-. split; [reflexivity|]. split; [|auto]. apply (ren_ext g1); [|exact REN1].
      intros x. destruct (K7 eq_refl) as [_ S]. specialize (K2 x). specialize (K3 x). specialize (K4 x). specialize (S x).
      destruct (g1 x), (g2 x); cbn in *; congruence. }
  destruct REN as [ -> [REN VS]].
  assert (NL : forall n x, LbOf s0 n x -> b_state (g2 x) = true -> In n T).
  { intros n x HL S. apply assoc_in in HL. destruct (K6 x S) as [S1|PR].
    - destruct (R4 x S1) as [S2|[m [M1 M2]]].
      + destruct (le_lt_dec (g_next gst0) x) as [L|L].
        * exact (p_newl _ _ _ _ _ _ _ P n x HL L S2).
        * exfalso. pose proof (f_lbl _ _ _ (p_fut _ _ _ _ _ _ _ P) n x HL L) as X. destruct X.
      + assert (m = n) by exact (p_inj _ _ _ _ _ _ _ P m n x M2 HL). subst m. apply in_map_iff in M1. destruct M1 as [[a b] [E1 E2]]. cbn in E1. subst a.
        destruct (p_fwd _ _ _ _ _ _ _ P n b E2) as [X|X]; [destruct X|exact X].
    - exfalso. apply (p_disj _ _ _ _ _ _ _ P x); [now exists n|]. apply (f_prom _ _ _ F1); [exact (i_lbl s0 I0 n x HL)|exact PR]. }
  assert (UN : forall b, b_end (g2 b) <> ENext None).
  { intros b E. rewrite K2 in E. destruct (in_dec Nat.eq_dec b (map snd (g_fwd s0))) as [X|X].
    - apply in_map_iff in X. destruct X as [[n b'] [E1 E2]]. cbn in E1. subst b'. exact (R2 n b E2 E).
    - rewrite R3 in E by exact X. destruct (p_unres _ _ _ _ _ _ _ P b E) as [n Hn]. apply X. apply in_map_iff. now exists (n, b). }
  assert (CE : b_end (g2 c) = ENone).
  { rewrite K2, R3; [exact (p_open _ _ _ _ _ _ _ P)|]. intros X. apply in_map_iff in X. destruct X as [[n b'] [E1 E2]]. cbn in E1. subst b'.
    destruct (i_fwd s0 I0 n c E2) as [_ E]. rewrite (p_open _ _ _ _ _ _ _ P) in E. discriminate. }
  pose proof (TR noE (upd_blk s0 g2) K1 ltac:(intros x [])) as TR2. cbn [g_blk upd_blk] in TR2.
  exists c, (length (b_ins (g_blk s0 c))). constructor; cbn [g_next upd_blk g_last].
  - exact TR2.
  - unfold full. now rewrite K3, RI.
  - exact CE.
  - exact (p_cur _ _ _ _ _ _ _ P).
  - exact UN.
  - intros b L. rewrite K2, R3; [now apply (i_out s0 I0)|]. intros X. apply in_map_iff in X. destruct X as [[n b'] [E1 E2]]. cbn in E1. subst b'.
    destruct (i_fwd s0 I0 n b E2). lia.
  - exact NL.
  - intros n Hn. destruct (targets_ok g2 (LbOf (upd_blk s0 g2)) UN) as [_ [X _]]. exact (X _ _ _ _ _ _ _ _ TR2 n Hn).
  - exact REN.
  - intros b e ib fi it eb fe et af Vb E S. pose proof (VS b Vb) as V1.
    assert (U : unreachable g1 r1 b = false).
    { unfold unreachable. apply orb_false_iff. split; [|now apply (n_dead _ _ _ REN1)]. destruct (b_state (g1 b)) eqn:Sb; [|reflexivity]. cbn.
      destruct (n_state _ _ _ REN1 b V1 Sb) as [i ->]. reflexivity. }
    assert (Lb : b < g_next s0).
    { destruct (le_lt_dec (g_next s0) b) as [L|L]; [|exact L]. exfalso. destruct (i_out s0 I0 b L) as [X _].
      rewrite K2, R3 in E; [congruence|]. intros Y. apply in_map_iff in Y. destruct Y as [[n b'] [E1 E2]]. cbn in E1. subst b'.
      destruct (i_fwd s0 I0 n b E2). lia. }
    assert (E1 : b_end (g1 b) = EIf e ib fi it eb fe et af) by (rewrite <- K2; exact E).
    destruct (K8 b e ib fi it eb fe et af) as [A1 [A2 A3]]; [apply in_seq; lia|exact U|exact E1|exact S|].
    split; [|split].
    + intros V. apply VS in V. apply (n_dead _ _ _ REN1) in V. now rewrite V in A1.
    + intros V. apply VS in V. apply (n_dead _ _ _ REN1) in V. now rewrite V in A2.
    + subst fi fe. destruct (dead r1 it), (dead r1 et); cbn in *; auto; discriminate.
  - destruct (p_last _ _ _ _ _ _ _ P) as [X|[[X1 X2]|[X [Y1 [Y2 Y3]]]]]; [now left|left; cbn in X2; congruence|right].
    destruct (b_state (g2 (g_last s0))) eqn:S; [|reflexivity]. exfalso.
    destruct (f_new _ _ _ K1 (g_last s0)) as [Z|[Z|[Z|Z]]]; cbn; try congruence; try contradiction; try lia.
  - apply K5. exact S0.
Qed.
