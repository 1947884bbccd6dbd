(** One cycle with temporaries, one cycle with macros. *)
From Coq Require Import List Bool Arith ZArith Lia.
Import ListNotations.
From Verif Require Import FsmModel FsmRun FsmEmit UseModel UseProofs UseSound UseTwo UseCycle DefineModel DefineProofs DefineSim.
From Verif Require DepModel DepProofs.

(** * Variables met before are assigned before. *)
Section Met.
  Variable x : var.
  Definition met_ch (c : ch) : Prop := forall s, memb x (fst (snd (anal tmp0 c s))) = true -> memb x (fst s) = true \/ In x (cwrites c).
  Definition met_list (l : list ch) : Prop := forall s, memb x (fst (snd (anals tmp0 l s))) = true -> memb x (fst s) = true \/ In x (lwrites l).
  Lemma met_app l : Forall met_ch l -> met_list l.
  Proof.
    induction 1 as [|c r Hc _ IH]; intros s H; [now left|]. rewrite anals_cons in H. cbn [snd] in H. unfold lwrites. cbn [map concat].
    destruct (IH _ H) as [G|G]; [|right; apply in_or_app; now right]. destruct (Hc _ G) as [K|K]; [now left|right; apply in_or_app; now left].
  Qed.
  Lemma met_all c : met_ch c.
  Proof.
    induction c as [y e|y g h i e|y h e|e|k|l|e a b Ha Hb|e cs Hcs|e a b Ha Hb|e cs Hcs|e a k Ha] using ch_ind2; intros [d u] H.
    1-3: cbn [anal fst snd cwrites] in *; rewrite memb_cons in H; apply orb_true_iff in H as [H|H]; [right; left; symmetry; now apply Nat.eqb_eq|now left].
    1-3: now left.
    - rewrite anal_rawif in H. now left.
    - rewrite anal_rawcase in H. now left.
    - rewrite anal_if in H. cbv zeta in H. cbn [fst snd] in *. rewrite writes_if. rewrite !memb_app in H. apply orb_true_iff in H as [H|H]; [now left|].
      apply orb_true_iff in H as [H|H]; [apply (met_app a Ha) in H|apply (met_app b Hb) in H]; destruct H as [H|H]; auto; right; apply in_or_app; auto.
    - rewrite anal_case in H. cbv zeta in H. cbn [fst snd] in *. rewrite writes_case. rewrite memb_app in H. apply orb_true_iff in H as [H|H]; [now left|].
      apply cases_deps in H as (c & Ic & H). rewrite Forall_forall in Hcs. apply (met_app (snd c) (Hcs c Ic)) in H as [H|H]; [now left|].
      right. apply in_concat. exists (lwrites (snd c)). split; [apply in_map_iff; eauto|exact H].
    - rewrite anal_while in H. cbv zeta in H. cbn [fst snd] in *. rewrite writes_while. rewrite !memb_app in H.
      apply orb_true_iff in H as [H|H]; [now left|]. apply orb_true_iff in H as [H|H]; [|now left].
      apply (met_app a Ha) in H as [H|H]; [now left|now right].
  Qed.
  Lemma met_lists l : met_list l.
  Proof. apply met_app, Forall_forall. intros c _. apply met_all. Qed.
End Met.

Lemma start_dq m : dq [] (u_start m).
Proof. intros x. unfold u_start. destruct (k_q m x); cbn; discriminate. Qed.
Lemma clear_dq d u : dq d u -> dq d (clear_nolatch u).
Proof. intros H x. cbn [clear_nolatch fQ fD]. apply H. Qed.
Lemma none_inv n : Inv n [] s_none.
Proof.
  split; [|split; [|split]].
  - intros w r. cbn. auto.
  - reflexivity.
  - discriminate.
  - discriminate.
Qed.
Lemma none_cov def M : cov def M (t_dep s_none).
Proof. intros x _ H. discriminate H. Qed.

Section Cycle.
  Variables (n : nat) (raw : var -> bool) (m : kmod) (def : var -> bool) (M : var -> vexp) (Q : store) (s : sst).
  Let U1 := u1 tmp0 m.
  Let U2 := u2 tmp0 m.
  Let U3 := u3 tmp0 m.
  Hypothesis st_eq : module_stable n m = Some s.
  Hypothesis fine_s : fine def s.
  Hypothesis noq_m : noq def (o_use (module_use tmp0 m)).
  Hypothesis shape_pre : shapes n raw (k_pre m) = true.
  Hypothesis shape_st : forall st, In st (k_states m) -> shapes n raw (snd st) = true.
  Hypothesis shape_post : shapes n raw (k_post m) = true.
  Hypothesis tx_pre : texts def M (lvsets (o_pre (module_use tmp0 m))).
  Hypothesis tx_st : forall st, In st (k_states m) -> texts def M (lvsets (fst (st_an tmp0 m st))).
  Hypothesis tx_post : texts def M (lvsets (o_post (module_use tmp0 m))).

  Definition put_out (o : kout) : kout :=
    {| o_pre := puts def M (o_pre o); o_arms := map (fun a => (fst a, puts def M (snd a))) (o_arms o); o_post := puts def M (o_post o); o_use := o_use o |}.

  Lemma noq3 : noq def U3.
  Proof. eapply noq_mono; [apply mono3|exact noq_m]. Qed.
  Lemma noq2 : noq def U2.
  Proof. eapply noq_mono; [apply mono23|exact noq3]. Qed.
  Lemma noq1 : noq def U1.
  Proof. eapply noq_mono; [apply mono12|exact noq2]. Qed.
  Lemma defq_m x : k_q m x = true -> def x = false.
  Proof. intros H. destruct (def x) eqn:X; [|reflexivity]. pose proof (noq1 x X) as N. rewrite (q1 m x H : fQ (U1 x) = true) in N. discriminate. Qed.

  Lemma dq1 : dq (d1 tmp0 m) U1.
  Proof. apply clear_dq. apply (dq_lists (k_pre m) ([], u_start m) (start_dq m)). Qed.
  Lemma dq_st st : dq (fst (snd (st_an tmp0 m st))) (snd (snd (st_an tmp0 m st))).
  Proof. apply (dq_lists (snd st) (d1 tmp0 m, u1 tmp0 m)). apply dq1. Qed.
  Lemma d2_in st x : In st (k_states m) -> memb x (fst (snd (st_an tmp0 m st))) = true -> memb x (d2 tmp0 m) = true.
  Proof.
    intros I H. unfold d2. rewrite memb_app. apply orb_true_iff. right. apply memb_In in H. apply memb_In, in_concat.
    exists (fst (snd (st_an tmp0 m st))). split; [apply in_map_iff; eauto|exact H].
  Qed.
  Lemma d2_case x : memb x (d2 tmp0 m) = true -> memb x (d1 tmp0 m) = true \/ exists st, In st (k_states m) /\ memb x (fst (snd (st_an tmp0 m st))) = true.
  Proof.
    unfold d2. rewrite memb_app. intros H. apply orb_true_iff in H as [H|H]; [now left|right].
    apply memb_In, in_concat in H as (l & I & H). apply in_map_iff in I as (st & <- & Ist). exists st. split; [exact Ist|now apply memb_In].
  Qed.
  Lemma d12 x : memb x (d1 tmp0 m) = true -> memb x (d2 tmp0 m) = true.
  Proof. intros H. unfold d2. now rewrite memb_app, H. Qed.
  Lemma dq2 : dq (d2 tmp0 m) U2.
  Proof.
    unfold U2, u2. destruct (k_states m) as [|s0 r] eqn:E.
    - eapply dq_weak; [exact d12|exact dq1].
    - rewrite <- E. apply (combine_dq (d1 tmp0 m)); [exact dq1|exact d12|].
      intros b I. apply in_map_iff in I as (st & <- & Ist). exists (fst (snd (st_an tmp0 m st))). split; [apply clear_dq, dq_st|].
      intros x. now apply d2_in.
  Qed.

  (** The analysis, stage by stage. *)
  Lemma stages : exists t1 ss, dans n (k_pre m) s_none = Some t1 /\ Forall2 (fun st b => dans n (snd st) t1 = Some b) (k_states m) ss /\
    dans n (k_post m) (match ss with [] => t1 | _ => djoin t1 ss ss end) = Some s.
  Proof.
    unfold module_stable in st_eq. destruct (dans n (k_pre m) s_none) as [t1|]; [|discriminate]. cbn [obind] in st_eq.
    destruct (dan_states n (k_states m) t1) as [ss|] eqn:E; [|discriminate]. cbn [obind] in st_eq. exists t1, ss.
    split; [reflexivity|]. split; [now apply states_in|exact st_eq].
  Qed.

  Lemma cycle_sim (T D : store) idx : unit_ok m idx = true -> (forall x, def x = false -> T x = D x) ->
    match kcycle (module_use tmp0 m) Q T idx, kcycle (put_out (module_use tmp0 m)) Q D idx with
    | Some (E1, i1), Some (E2, i2) => i1 = i2 /\ rel def M Q (settled m idx) (fst (snd (s_post tmp0 m))) U3 E1 E2
    | None, None => True
    | _, _ => False
    end.
  Proof.
    intros OK AG. unfold unit_ok in OK. apply andb_true_iff in OK as [OK OKpost]. apply andb_true_iff in OK as [OKpre OKst].
    rewrite forallb_forall in OKst.
    destruct stages as (t1 & ss & H1 & HS & H3).
    set (t2 := match ss with [] => t1 | _ => djoin t1 ss ss end) in *.
    assert (F2 : fine def t2) by (eapply fine_back; eassumption).
    assert (F1 : fine def t1).
    { unfold t2 in F2. destruct ss as [|b0 ss']; [exact F2|]. intros x X B. apply (F2 x X). now apply join_bad0. }
    assert (FS : forall b, In b ss -> fine def b).
    { intros b I. unfold t2 in F2. destruct ss as [|b0 ss']; [destruct I|]. eapply fine_join; [| |exact F2]; exact I. }
    rewrite module_use_eq in tx_pre, tx_post. cbn [o_pre o_post] in tx_pre, tx_post.
    (* always_before *)
    destruct (sim_chain n raw (k_q m) def M Q all_p defq_m (k_pre m) OKpre [] (u_start m) s_none t1 shape_pre (start_wf m) (start_dq m) (none_inv n) (none_cov def M)) as (C1 & N1 & SM1).
    { intros x Hx. discriminate Hx. }
    { exact H1. }
    { exact F1. }
    { eapply noq_mono; [apply clear_mono|exact noq1]. }
    { exact tx_pre. }
    fold (s_pre tmp0 m) in N1, SM1. fold (d1 tmp0 m) in N1, SM1.
    pose proof (inv_lists n raw (k_pre m) [] (u_start m) s_none t1 shape_pre (none_inv n) H1) as I1. fold (s_pre tmp0 m) in I1. fold (d1 tmp0 m) in I1.
    destruct (SM1 T D idx) as (E1 & _ & R1).
    { split; [exact AG|]. intros x _ _. now left. }
    assert (R1' : rel def M Q all_p (d1 tmp0 m) U1 (fst (vexecs Q (fst (s_pre tmp0 m)) (T, idx))) (fst (vexecs Q (puts def M (fst (s_pre tmp0 m))) (D, idx)))).
    { eapply rel_fl; [|exact R1]. reflexivity. }
    unfold kcycle, put_out. rewrite module_use_eq. cbn [o_pre o_arms o_post].
    clear R1 SM1. revert E1 R1'.
    destruct (vexecs Q (fst (s_pre tmp0 m)) (T, idx)) as [T1 j]. destruct (vexecs Q (puts def M (fst (s_pre tmp0 m))) (D, idx)) as [D1 j2].
    cbn [fst snd]. intros E1 R1'. subst j2.
    (* the states *)
    assert (NST : forall st, In st (k_states m) -> noq def (snd (snd (st_an tmp0 m st)))).
    { intros st I. eapply noq_mono; [apply (mono_st m st I)|exact noq2]. }
    assert (ST : forall st b, In st (k_states m) -> In b ss -> dans n (snd st) t1 = Some b ->
      cov def M (t_dep b) /\ nraw raw (fst (snd (st_an tmp0 m st))) /\ sim_t def M Q all_p (fst (st_an tmp0 m st)) (d1 tmp0 m) U1).
    { intros st b I Ib Hb. apply (sim_tail n raw (k_q m) def M Q all_p defq_m (snd st) (OKst st I) (d1 tmp0 m) U1 t1 b (shape_st st I) (wf1 m) dq1 I1 C1 N1 Hb (FS b Ib) (NST st I) (tx_st st I)). }
    assert (I2 : Inv n (d2 tmp0 m) t2).
    { unfold t2. destruct ss as [|b0 ss'] eqn:ESS.
      - unfold d2. inversion HS as [E0|]. cbn [map concat]. rewrite app_nil_r. exact I1.
      - rewrite <- ESS in *. eapply inv_join; [exact I1| |exact d12| |auto|auto].
        + intros b Ib. destruct (F2_right _ _ _ HS b Ib) as (st & Ist & Hb). exists (fst (snd (st_an tmp0 m st))). split; [|intros x; now apply d2_in].
          apply (inv_lists n raw (snd st) (d1 tmp0 m) (u1 tmp0 m) t1 b (shape_st st Ist) I1 Hb).
        + intros x Hx. apply d2_case in Hx as [Hx|(st & Ist & Hx)]; [now left|right]. destruct (F2_left _ _ _ HS st Ist) as (b & Ib & Hb). exists b. split; [exact Ib|].
          destruct (inv_lists n raw (snd st) (d1 tmp0 m) (u1 tmp0 m) t1 b (shape_st st Ist) I1 Hb) as (_ & B & _). rewrite B. exact Hx. }
    assert (C2 : cov def M (t_dep t2)).
    { unfold t2. destruct ss as [|b0 ss'] eqn:ESS; [exact C1|]. rewrite <- ESS in *. apply cov_join; [exact C1|]. intros b Ib.
      destruct (F2_right _ _ _ HS b Ib) as (st & Ist & Hb). now apply (ST st b Ist Ib Hb). }
    assert (N2 : nraw raw (d2 tmp0 m)).
    { intros x Hx. apply d2_case in Hx as [Hx|(st & Ist & Hx)]; [now apply N1|]. destruct (F2_left _ _ _ HS st Ist) as (b & Ib & Hb). now apply (ST st b Ist Ib Hb). }
    (* always_after *)
    assert (POST : forall G1 G2 j, rel def M Q (settled m idx) (d2 tmp0 m) U2 G1 G2 ->
      let '(H1, i1) := vexecs Q (fst (s_post tmp0 m)) (G1, j) in let '(H2, i2) := vexecs Q (puts def M (fst (s_post tmp0 m))) (G2, j) in
      i1 = i2 /\ rel def M Q (settled m idx) (fst (snd (s_post tmp0 m))) U3 H1 H2).
    { intros G1 G2 k R.
      destruct (sim_chain n raw (k_q m) def M Q (settled m idx) defq_m (k_post m) OKpost (d2 tmp0 m) U2 t2 s shape_post (wf2 m) dq2 I2 C2 N2 H3 fine_s) as (_ & _ & SM).
      { eapply noq_mono; [apply clear_mono|exact noq3]. }
      { exact tx_post. }
      destruct (SM G1 G2 k R) as (E & _ & R'). change (anals tmp0 (k_post m) (d2 tmp0 m, U2)) with (s_post tmp0 m) in E, R'.
      destruct (vexecs Q (fst (s_post tmp0 m)) (G1, k)) as [A1 i1]. destruct (vexecs Q (puts def M (fst (s_post tmp0 m))) (G2, k)) as [A2 i2].
      cbn [fst snd] in *. split; [exact E|]. eapply rel_fl; [|exact R']. reflexivity. }
    (* the states did not settle the value of x *)
    assert (UNS : forall G1 G2, (forall x, def x = false -> G1 x = G2 x) -> keepd def M Q (d1 tmp0 m) T1 D1 G1 G2 -> 
      forall x, def x = true -> k_q m x || negb (memb x (concat (map (fun st => lwrites (snd st)) (k_states m)))) = true ->
      memb x (d2 tmp0 m) = false \/ fL (U2 x) = true \/ G1 x = veval Q G2 (M x)).
    { intros G1 G2 GE K x X H. apply orb_true_iff in H as [H|H]; [apply defq_m in H; congruence|]. apply negb_true_iff in H.
      destruct (memb x (d1 tmp0 m)) eqn:W.
      - right. destruct R1' as [_ R1']. destruct (R1' x X eq_refl) as [B|[B|B]]; [congruence| |right; now apply K].
        destruct (k_states m) as [|s0 r] eqn:E; [left; unfold U2, u2; now rewrite E|]. exfalso.
        assert (Is : In s0 (k_states m)) by (rewrite E; now left).
        pose proof (noq2 x X) as NQ. unfold U2, u2 in NQ. rewrite E in NQ. cbn [combine fQ map] in NQ. apply orb_false_iff in NQ as [_ NQ].
        pose proof (NST s0 (or_introl eq_refl) x X) as EQ. destruct (wf_st m s0) as [_ Ms]. destruct (wf1 m x) as (_ & _ & W3 & _).
        cbn [existsb clear_nolatch fD fQ] in NQ. rewrite EQ in NQ. cbn [negb] in NQ. destruct (Ms x) as [Md _]. rewrite (Md (W3 B)) in NQ. cbn [orb andb] in NQ.
        unfold U1 in B. rewrite B in NQ. discriminate NQ.
      - left. destruct (memb x (d2 tmp0 m)) eqn:W2; [|reflexivity]. exfalso. apply d2_case in W2 as [W2|(st & Ist & W2)]; [congruence|].
        unfold st_an in W2. apply met_lists in W2 as [W2|W2]; [cbn [fst] in W2; congruence|].
        assert (memb x (concat (map (fun st => lwrites (snd st)) (k_states m))) = true); [|congruence].
        apply memb_In, in_concat. exists (lwrites (snd st)). split; [apply in_map_iff; eauto|exact W2]. }
    assert (CS : k_states m = [] \/ exists s0 r, k_states m = s0 :: r) by (destruct (k_states m); eauto).
    destruct CS as [ES|(s0 & r & ES)].
    - (* no state machine *)
      rewrite map_map. cbn [fst snd].
      replace (map (fun x => (fst x, fst (st_an tmp0 m x))) (k_states m)) with (@nil (nat * list vst)) by now rewrite ES.
      replace (map (fun x => (fst x, puts def M (fst (st_an tmp0 m x)))) (k_states m)) with (@nil (nat * list vst)) by now rewrite ES.
      assert (R2 : rel def M Q (settled m idx) (d2 tmp0 m) U2 T1 D1).
      { destruct R1' as [A B]. split; [exact A|]. intros x X P. unfold U2, u2, d2. rewrite ES. cbn [map concat]. rewrite app_nil_r. now apply B. }
      specialize (POST T1 D1 j R2). cbn [obind]. destruct (vexecs Q (fst (s_post tmp0 m)) (T1, j)), (vexecs Q (puts def M (fst (s_post tmp0 m))) (D1, j)). exact POST.
    - assert (NE : exists z zs, map (fun st => (fst st, fst (st_an tmp0 m st))) (k_states m) = z :: zs) by (rewrite ES; cbn [map]; eauto).
      destruct NE as (z & zs & EZ).
      assert (NE' : exists z' zs', map (fun a => (fst a, puts def M (snd a))) (map (fun st => (fst st, fst (st_an tmp0 m st))) (k_states m)) = z' :: zs') by (rewrite ES; cbn [map]; eauto).
      destruct NE' as (z' & zs' & EZ'). rewrite EZ'. rewrite EZ. cbn match. rewrite <- EZ, <- EZ'.
      assert (AP : forall k l, arm_of k (map (fun a => (fst a, puts def M (snd a))) l) = match arm_of k l with Some c => Some (puts def M c) | None => None end).
      { induction l as [|[a b] l IH]; [reflexivity|]. cbn [map arm_of fst snd]. now destruct (Nat.eqb a k). }
      rewrite AP, arm_at.
      destruct (Nat.eqb idx 0) eqn:EI.
      + (* termination *)
        assert (R2 : rel def M Q (settled m idx) (d2 tmp0 m) U2 T1 D1).
        { split; [apply R1'|]. intros x X Hx. apply UNS; [apply R1'|apply keepd_refl|exact X|]. unfold settled in Hx. rewrite ES, EI in Hx. rewrite <- ES in Hx. cbn [negb andb orb] in Hx. exact Hx. }
        specialize (POST T1 D1 j R2). cbn [obind]. destruct (vexecs Q (fst (s_post tmp0 m)) (T1, j)), (vexecs Q (puts def M (fst (s_post tmp0 m))) (D1, j)). exact POST.
      + destruct (chain_at idx (k_states m)) as [l|] eqn:EC; [|exact I].
        destruct (chain_in _ _ _ EC) as [k Il]. destruct (F2_left _ _ _ HS (k, l) Il) as (b & Ib & Hb).
        destruct (ST (k, l) b Il Ib Hb) as (_ & _ & SM). destruct (SM T1 D1 j R1') as (E2 & K2 & R2). unfold st_an in E2, K2, R2. cbn [snd] in E2, K2, R2.
        assert (I3 : rel def M Q (settled m idx) (d2 tmp0 m) U2 (fst (vexecs Q (fst (anals tmp0 l (d1 tmp0 m, u1 tmp0 m))) (T1, j))) (fst (vexecs Q (puts def M (fst (anals tmp0 l (d1 tmp0 m, u1 tmp0 m)))) (D1, j)))).
        { split; [exact R2|]. intros x X Hx. destruct (oks (k_q m) all_p l) eqn:EO.
          - destruct (sim_chain n raw (k_q m) def M Q all_p defq_m l EO (d1 tmp0 m) U1 t1 b (shape_st (k, l) Il) (wf1 m) dq1 I1 C1 N1 Hb (FS b Ib) (NST (k, l) Il) (tx_st (k, l) Il)) as (_ & _ & SM').
            destruct (SM' T1 D1 j R1') as (_ & _ & R3).
            assert (R4 : rel def M Q all_p (d2 tmp0 m) (combine (u1 tmp0 m) (map (fun st => clear_nolatch (snd (snd (st_an tmp0 m st)))) (k_states m)))
                (fst (vexecs Q (fst (anals tmp0 l (d1 tmp0 m, u1 tmp0 m))) (T1, j))) (fst (vexecs Q (puts def M (fst (anals tmp0 l (d1 tmp0 m, u1 tmp0 m)))) (D1, j)))).
            { eapply (combine_rel def M Q all_p (d1 tmp0 m) (u1 tmp0 m) _ (fst (snd (st_an tmp0 m (k, l)))) (clear_nolatch (snd (snd (st_an tmp0 m (k, l)))))); [exact (wf1 m)|exact dq1| | | | | |exact R1'|exact K2|].
              - intros b' I'. apply in_map_iff in I' as (st & <- & Ist). eapply mono_trans; [apply (wf_st m st)|apply clear_mono].
              - apply in_map_iff. exists (k, l). split; [reflexivity|exact Il].
              - apply clear_dq, dq_st.
              - pose proof (wf2 m) as W. unfold u2 in W. rewrite ES in W. rewrite <- ES in W. exact W.
              - pose proof noq2 as N. unfold U2, u2 in N. rewrite ES in N. rewrite <- ES in N. exact N.
              - eapply rel_fl; [|exact R3]. reflexivity. }
            unfold U2, u2. rewrite ES. rewrite <- ES. now apply R4.
          - apply UNS; [exact R2|exact K2|exact X|]. unfold settled in Hx. rewrite ES in Hx. rewrite <- ES in Hx. rewrite EC, EO, andb_false_r in Hx. cbn [orb] in Hx. exact Hx. }
        specialize (POST _ _ (snd (vexecs Q (fst (anals tmp0 l (d1 tmp0 m, u1 tmp0 m))) (T1, j))) I3). cbn [obind].
        change (anals tmp0 l (d1 tmp0 m, U1)) with (anals tmp0 l (d1 tmp0 m, u1 tmp0 m)) in *.
        destruct (vexecs Q (fst (anals tmp0 l (d1 tmp0 m, u1 tmp0 m))) (T1, j)) as [G1 k1]. destruct (vexecs Q (puts def M (fst (anals tmp0 l (d1 tmp0 m, u1 tmp0 m)))) (D1, j)) as [G2 k2].
        cbn [obind fst snd] in *. subst k2. destruct (vexecs Q (fst (s_post tmp0 m)) (G1, k1)), (vexecs Q (puts def M (fst (s_post tmp0 m))) (G2, k1)). exact POST.
  Qed.

  (** What is read of a macro after the cycle. *)
  Lemma after_define x E1 E2 idx : rel def M Q (settled m idx) (fst (snd (s_post tmp0 m))) U3 E1 E2 -> settled m idx x = true -> In x (k_d m) -> assigned m x -> def x = true ->
    E1 x = veval Q E2 (M x).
  Proof.
    intros [_ R] SE KD AS X. pose proof (noq_m x X) as NQ. apply memb_In in KD.
    rewrite module_use_eq in NQ. cbn [o_use clear_nolatch combine fQ existsb] in NQ. unfold post_usage in NQ. rewrite KD in NQ.
    cbn [upd_d fl0 fD fQ fL andb negb orb] in NQ. apply orb_false_iff in NQ as [_ N2].
    assert (W : memb x (fst (snd (s_post tmp0 m))) = true).
    { unfold s_post. destruct AS as [H|[(st & I & H)|H]]; [| |now apply setd_lists].
      - apply deps_list. cbn [fst]. apply d12. unfold d1, s_pre. now apply setd_lists.
      - apply deps_list. cbn [fst]. apply (d2_in st x I). unfold st_an. now apply setd_lists. }
    destruct (R x X SE) as [B|[B|B]]; [congruence|unfold U3 in B; congruence|exact B].
  Qed.
End Cycle.
