(** Units: cycles with registers, cycles with temporaries. *)
From Coq Require Import List Bool Arith ZArith Lia.
Import ListNotations.
From Verif Require Import FsmModel FsmRun FsmEmit UseModel UseProofs UseSound UseTwo.

Definition all_p : var -> bool := fun _ => true.
Fixpoint chain_at (k : nat) (l : list (nat * list ch)) : option (list ch) :=
  match l with [] => None | (a, c) :: r => if Nat.eqb a k then Some c else chain_at k r end.

(** A variable whose value after the states is known to the analysis: there are no states, or the state selected is not the termination state
    and does not end with a loop, or a use of the Q side is recorded from the start, or no state assigns it. *)
Definition settled (m : kmod) (idx : nat) (x : var) : bool :=
  match k_states m with [] => true | _ => false end
  || (negb (Nat.eqb idx 0) && match chain_at idx (k_states m) with None => true | Some l => oks (k_q m) all_p l end)
  || k_q m x
  || negb (memb x (concat (map (fun st => lwrites (snd st)) (k_states m)))).
(** Units considered, when the state is [idx]. *)
Definition unit_ok (m : kmod) (idx : nat) : bool :=
  oks (k_q m) all_p (k_pre m) && forallb (fun st => toks (k_q m) all_p (snd st)) (k_states m) && oks (k_q m) (settled m idx) (k_post m).

(** The intermediate usages of [module_use]. *)
Section Parts.
  Variable tmp : var -> bool.
  Variable m : kmod.
  Definition s_pre := anals tmp (k_pre m) ([], u_start m).
  Definition d1 := fst (snd s_pre).
  Definition u1 := clear_nolatch (snd (snd s_pre)).
  Definition st_an (st : nat * list ch) := anals tmp (snd st) (d1, u1).
  Definition u2 := match k_states m with [] => u1 | _ => combine u1 (map (fun st => clear_nolatch (snd (snd (st_an st)))) (k_states m)) end.
  Definition d2 := d1 ++ concat (map (fun st => fst (snd (st_an st))) (k_states m)).
  Definition s_post := anals tmp (k_post m) (d2, u2).
  Definition u3 := clear_nolatch (snd (snd s_post)).
  Lemma module_use_eq : module_use tmp m =
    {| o_pre := fst s_pre; o_arms := map (fun st => (fst st, fst (st_an st))) (k_states m); o_post := fst s_post;
       o_use := clear_nolatch (combine u3 [post_usage m]) |}.
  Proof.
    unfold module_use, u3, s_post, d2, u2, st_an, d1, u1, s_pre. destruct (anals tmp (k_pre m) ([], u_start m)) as [cpre spre]. cbn [fst snd].
    rewrite !map_map. cbn [fst snd].
    destruct (anals tmp (k_post m) _) as [cpost spost]. cbn [fst snd]. reflexivity.
  Qed.
End Parts.

Lemma clear_wf d u : wf d u -> wf d (clear_nolatch u).
Proof. intros W x. destruct (W x) as (A & B & C & E). cbn [clear_nolatch fD fQ fL fN]. split; [exact A|]. split; [discriminate|]. split; [exact C|discriminate]. Qed.
Lemma clear_mono u : mono u (clear_nolatch u).
Proof. intros x. cbn. tauto. Qed.
Lemma clear_mono' u : mono (clear_nolatch u) u.
Proof. intros x. cbn. tauto. Qed.
Lemma start_wf m : wf [] (u_start m).
Proof. intros x. unfold u_start. destruct (k_q m x); cbn; repeat split; discriminate. Qed.
Lemma arm_at tmp m k : arm_of k (map (fun st => (fst st, fst (st_an tmp m st))) (k_states m)) =
  match chain_at k (k_states m) with None => None | Some l => Some (fst (anals tmp l (d1 tmp m, u1 tmp m))) end.
Proof.
  induction (k_states m) as [|[n l] r IH]; [reflexivity|]. cbn [map arm_of chain_at fst]. destruct (Nat.eqb n k); [reflexivity|exact IH].
Qed.
Lemma chain_in k l c : chain_at k l = Some c -> exists n, In (n, c) l.
Proof.
  induction l as [|[a b] r IH]; [discriminate|]. cbn [chain_at]. destruct (Nat.eqb a k); intros H.
  - injection H as <-. exists a. now left.
  - destruct (IH H) as [n I]. exists n. now right.
Qed.

Section Unit.
  Variable m : kmod.
  Let U1 := u1 tmp0 m.
  Let U2 := u2 tmp0 m.
  Let U3 := u3 tmp0 m.
  Let S0 := (d1 tmp0 m, U1).

  Lemma wf1 : wf (d1 tmp0 m) U1.
  Proof. apply clear_wf. apply (good_lists tmp0 (k_pre m) ([], u_start m) (start_wf m)). Qed.
  Lemma wf_st st : wf (fst (snd (st_an tmp0 m st))) (snd (snd (st_an tmp0 m st))) /\ mono U1 (snd (snd (st_an tmp0 m st))).
  Proof. destruct (good_lists tmp0 (snd st) (d1 tmp0 m, u1 tmp0 m) wf1) as [A [B _]]. split; assumption. Qed.
  Lemma mono12 : mono U1 U2.
  Proof. unfold U2, u2. destruct (k_states m); [apply mono_refl|apply combine_mono]. Qed.
  Lemma mono_st st : In st (k_states m) -> mono (snd (snd (st_an tmp0 m st))) U2.
  Proof.
    intros I. unfold U2, u2. destruct (k_states m) as [|s0 r] eqn:E; [destruct I|].
    eapply mono_trans; [apply clear_mono|]. apply combine_mono_br. apply (in_map (fun st => clear_nolatch (snd (snd (st_an tmp0 m st)))) _ _ I).
  Qed.
  Lemma wf2 : wf (d2 tmp0 m) U2.
  Proof.
    unfold U2, u2, d2. destruct (k_states m) as [|s0 r] eqn:E.
    - cbn [map concat]. rewrite app_nil_r. apply wf1.
    - rewrite <- E in *. eapply combine_wf; [apply wf1| |].
      + intros b I. apply in_map_iff in I as (st & <- & Ist). eexists. apply clear_wf, wf_st.
      + intros x Hx. rewrite memb_app in Hx. apply orb_true_iff in Hx as [Hx|Hx]; [now left|right].
        apply memb_In in Hx. apply in_concat in Hx as (l & Il & Ix). apply in_map_iff in Il as (st & <- & Ist).
        exists (clear_nolatch (snd (snd (st_an tmp0 m st)))), (fst (snd (st_an tmp0 m st))).
        split; [apply in_map_iff; eauto|]. split; [apply clear_wf, wf_st|now apply memb_In].
  Qed.
  Lemma wf3 : wf (fst (snd (s_post tmp0 m))) U3.
  Proof. apply clear_wf. apply (good_lists tmp0 (k_post m) (d2 tmp0 m, U2) wf2). Qed.
  Lemma mono23 : mono U2 U3.
  Proof. unfold U3, u3. eapply mono_trans; [|apply clear_mono]. apply (good_lists tmp0 (k_post m) (d2 tmp0 m, U2) wf2). Qed.
  Lemma mono3 : mono U3 (o_use (module_use tmp0 m)).
  Proof. rewrite module_use_eq. cbn [o_use]. eapply mono_trans; [apply combine_mono|apply clear_mono]. Qed.
  Lemma q_start x : k_q m x = true -> fQ (u_start m x) = true.
  Proof. unfold u_start. intros ->. reflexivity. Qed.
  Lemma q1 x : k_q m x = true -> fQ (U1 x) = true.
  Proof. intros H. apply clear_mono. apply (good_lists tmp0 (k_pre m) ([], u_start m) (start_wf m)). now apply q_start. Qed.

  Variables Q1 Q2 : store.

  (** One cycle: registers agreeing where a use of Q is recorded. *)
  Lemma cycle_sound D1 D2 idx : unit_ok m idx = true -> agr Q1 Q2 (o_use (module_use tmp0 m)) D1 D2 ->
    match kcycle (module_use tmp0 m) Q1 D1 idx, kcycle (module_use tmp0 m) Q2 D2 idx with
    | Some (E1, i1), Some (E2, i2) => i1 = i2 /\ keeps D1 D2 E1 E2 /\ inv (settled m idx) U3 E1 E2
    | None, None => True
    | _, _ => False
    end.
  Proof.
    intros OK A. unfold unit_ok in OK. apply andb_true_iff in OK as [OK OKpost]. apply andb_true_iff in OK as [OKpre OKst].
    rewrite forallb_forall in OKst.
    assert (A3 : agr Q1 Q2 U3 D1 D2) by (eapply agr_mono; [apply mono3|exact A]). clear A.
    assert (A2 : agr Q1 Q2 U2 D1 D2) by (eapply agr_mono; [apply mono23|exact A3]).
    assert (A1 : agr Q1 Q2 U1 D1 D2) by (eapply agr_mono; [apply mono12|exact A2]).
    (* always_before *)
    destruct (sound_chain Q1 Q2 all_p (k_q m) (k_pre m) OKpre ([], u_start m) (start_wf m) q_start D1 D2 idx) as (E1 & K1 & I1).
    { intros x _. right. left. unfold u_start. cbn [snd]. destruct (k_q m x); reflexivity. }
    { eapply agr_mono; [apply clear_mono|exact A1]. }
    unfold kcycle. rewrite module_use_eq. cbn [o_pre o_arms o_post]. fold (s_pre tmp0 m) in E1, K1, I1.
    destruct (vexecs Q1 (fst (s_pre tmp0 m)) (D1, idx)) as [F1 j]. destruct (vexecs Q2 (fst (s_pre tmp0 m)) (D2, idx)) as [F2 j2].
    cbn [fst snd] in E1, K1, I1. subst j2.
    assert (I1' : inv all_p U1 F1 F2) by exact I1. clear I1.
    (* always_after *)
    assert (POST : forall G1 G2 j, keeps F1 F2 G1 G2 -> inv (settled m idx) U2 G1 G2 ->
      let '(H1, i1) := vexecs Q1 (fst (s_post tmp0 m)) (G1, j) in let '(H2, i2) := vexecs Q2 (fst (s_post tmp0 m)) (G2, j) in
      i1 = i2 /\ keeps D1 D2 H1 H2 /\ inv (settled m idx) U3 H1 H2).
    { intros G1 G2 k K I.
      destruct (sound_chain Q1 Q2 (settled m idx) (k_q m) (k_post m) OKpost (d2 tmp0 m, U2) wf2) with (D1 := G1) (D2 := G2) (i := k) as (E & K' & I').
      { intros x Hx. apply mono12, q1, Hx. }
      { exact I. }
      { eapply agr_mono; [apply clear_mono|]. eapply agr_keeps; [exact K|]. eapply agr_keeps; [exact K1|]. exact A3. }
      change (anals tmp0 (k_post m) (d2 tmp0 m, U2)) with (s_post tmp0 m) in E, K', I'. destruct (vexecs Q1 (fst (s_post tmp0 m)) (G1, k)) as [H1 i1]. destruct (vexecs Q2 (fst (s_post tmp0 m)) (G2, k)) as [H2 i2].
      cbn [fst snd] in *. split; [exact E|]. split; [|exact I']. eapply keeps_trans; [exact K1|]. eapply keeps_trans; [exact K|exact K']. }
    (* the states did not settle the value of x *)
    assert (UNS : forall G1 G2, keeps F1 F2 G1 G2 -> forall x,
      k_q m x || negb (memb x (concat (map (fun st => lwrites (snd st)) (k_states m)))) = true ->
      fQ (U2 x) = true \/ fD (U2 x) = false \/ fL (U2 x) = true \/ G1 x = G2 x).
    { intros G1 G2 K x H. apply orb_true_iff in H as [H|H]; [left; apply mono12, q1, H|].
      apply negb_true_iff in H.
      destruct (I1' x eq_refl) as [B|[B|[B|B]]].
      - left. now apply mono12.
      - assert (UW : unw (U2 x)).
        { unfold U2, u2. destruct (k_states m) as [|s0 r] eqn:E; [now right|]. rewrite <- E in *. apply combine_unw; [now right|].
          intros b I. apply in_map_iff in I as (st & <- & Ist).
          assert (N : ~ In x (lwrites (snd st))).
          { intros F. assert (memb x (concat (map (fun st => lwrites (snd st)) (k_states m))) = true); [|congruence].
            apply memb_In, in_concat. exists (lwrites (snd st)). split; [apply in_map_iff; eauto|exact F]. }
          destruct (unw_lists x (snd st) (d1 tmp0 m, u1 tmp0 m) wf1 N) as [G|G]; [now right|left; exact G|right; exact G]. }
        destruct UW; auto.
      - destruct (k_states m) as [|s0 r] eqn:E.
        { right. right. left. unfold U2, u2. now rewrite E. }
        destruct (wf_st s0) as [Ws Ms]. destruct (wf1 x) as (_ & _ & W3 & _).
        destruct (fQ (snd (snd (st_an tmp0 m s0)) x)) eqn:EQ.
        { left. apply (mono_st s0); [rewrite E; now left|exact EQ]. }
        left. unfold U2, u2. rewrite E. cbn [combine fQ map]. apply orb_true_iff. right. apply andb_true_iff. split; [|exact B].
        cbn [existsb clear_nolatch fD fQ]. rewrite EQ. cbn [negb]. rewrite andb_true_r. destruct (Ms x) as [Md _]. now rewrite (Md (W3 B)).
      - right. right. right. now apply K. }
    assert (CS : k_states m = [] \/ exists s0 r, k_states m = s0 :: r) by (destruct (k_states m); eauto).
    destruct CS as [ES|(s0 & r & ES)].
    - (* no state machine *)
      replace (map (fun st => (fst st, fst (st_an tmp0 m st))) (k_states m)) with (@nil (nat * list vst)) by now rewrite ES.
      specialize (POST F1 F2 j (keeps_refl _ _)). cbn zeta in POST.
      assert (I2 : inv (settled m idx) U2 F1 F2). { intros x _. unfold U2, u2. rewrite ES. now apply I1'. }
      specialize (POST I2). cbn [obind]. destruct (vexecs Q1 (fst (s_post tmp0 m)) (F1, j)), (vexecs Q2 (fst (s_post tmp0 m)) (F2, j)). exact POST.
    - assert (NE : exists z zs, map (fun st => (fst st, fst (st_an tmp0 m st))) (k_states m) = z :: zs) by (rewrite ES; cbn [map]; eauto).
      destruct NE as (z & zs & EZ).
      rewrite EZ. cbn match. rewrite <- EZ. rewrite arm_at.
      destruct (Nat.eqb idx 0) eqn:EI.
      + (* termination *)
        specialize (POST F1 F2 j (keeps_refl _ _)).
        assert (I2 : inv (settled m idx) U2 F1 F2).
        { intros x Hx. apply UNS; [apply keeps_refl|]. unfold settled in Hx. rewrite ES, EI in Hx. rewrite <- ES in Hx. cbn [negb andb orb] in Hx. exact Hx. }
        specialize (POST I2). cbn [obind]. destruct (vexecs Q1 (fst (s_post tmp0 m)) (F1, j)), (vexecs Q2 (fst (s_post tmp0 m)) (F2, j)). exact POST.
      + destruct (chain_at idx (k_states m)) as [l|] eqn:EC; [|exact I].
        destruct (chain_in _ _ _ EC) as [n Il].
        assert (A2s : agr Q1 Q2 (snd (snd (anals tmp0 l (d1 tmp0 m, u1 tmp0 m)))) F1 F2).
        { eapply agr_keeps; [exact K1|]. eapply agr_mono; [exact (mono_st (n, l) Il)|exact A2]. }
        destruct (tail_sound (k_q m) all_p Q1 Q2 l (OKst (n, l) Il) (d1 tmp0 m, u1 tmp0 m) F1 F2 j wf1 q1 I1' A2s) as [E2 K2].
        assert (I2 : inv (settled m idx) U2 (fst (vexecs Q1 (fst (anals tmp0 l (d1 tmp0 m, u1 tmp0 m))) (F1, j))) (fst (vexecs Q2 (fst (anals tmp0 l (d1 tmp0 m, u1 tmp0 m))) (F2, j)))).
        { intros x Hx. destruct (oks (k_q m) all_p l) eqn:EO.
          - destruct (sound_chain Q1 Q2 all_p (k_q m) l EO (d1 tmp0 m, u1 tmp0 m) wf1 q1 F1 F2 j I1' A2s) as (_ & _ & I').
            unfold U2, u2. rewrite ES. rewrite <- ES.
            refine (combine_inv all_p (u1 tmp0 m) _ (clear_nolatch (snd (snd (anals tmp0 l (d1 tmp0 m, u1 tmp0 m))))) (d1 tmp0 m) F1 F2 _ _ wf1 _ _ I1' K2 _ x eq_refl).
            + intros b I. apply in_map_iff in I as (st & <- & Ist). split; [eexists; apply clear_wf, wf_st|].
              eapply mono_trans; [apply (wf_st st)|apply clear_mono].
            + apply in_map_iff. exists (n, l). split; [reflexivity|exact Il].
            + exact I'.
          - apply UNS; [exact K2|]. unfold settled in Hx. rewrite ES in Hx. rewrite <- ES in Hx. rewrite EC, EO, andb_false_r in Hx. cbn [orb] in Hx. exact Hx. }
        specialize (POST _ _ (snd (vexecs Q1 (fst (anals tmp0 l (d1 tmp0 m, u1 tmp0 m))) (F1, j))) K2 I2). cbn [obind].
        destruct (vexecs Q1 (fst (anals tmp0 l (d1 tmp0 m, u1 tmp0 m))) (F1, j)) as [G1 k1]. destruct (vexecs Q2 (fst (anals tmp0 l (d1 tmp0 m, u1 tmp0 m))) (F2, j)) as [G2 k2].
        cbn [obind fst snd] in *. subst k2. destruct (vexecs Q1 (fst (s_post tmp0 m)) (G1, k1)), (vexecs Q2 (fst (s_post tmp0 m)) (G2, k1)). exact POST.
  Qed.

  (** Variables read on their D side after the cycle. *)
  Lemma after_d x E1 E2 idx : inv (settled m idx) U3 E1 E2 -> settled m idx x = true -> memb x (k_d m) = true -> fD (U3 x) = true ->
    fQ (o_use (module_use tmp0 m) x) = false -> E1 x = E2 x.
  Proof.
    intros I S M FD NQ. rewrite module_use_eq in NQ. cbn [o_use clear_nolatch combine fQ existsb] in NQ. unfold post_usage in NQ. rewrite M in NQ.
    cbn [upd_d fl0 fD fQ fL andb negb orb] in NQ. apply orb_false_iff in NQ as [N1 N2]. apply orb_false_iff in N1 as [N1 _].
    destruct (I x S) as [B|[B|[B|B]]]; [unfold U3 in B; congruence|congruence|unfold U3 in B; congruence|exact B].
  Qed.

  (** Assigned variables. *)
  Definition assigned (x : var) : Prop := In x (lsets (k_pre m)) \/ (exists st, In st (k_states m) /\ In x (lsets (snd st))) \/ In x (lsets (k_post m)).
  Lemma assigned_d x : assigned x -> fD (U3 x) = true.
  Proof.
    intros [H|[(st & I & H)|H]].
    - apply mono23, mono12, clear_mono. destruct (good_lists tmp0 (k_pre m) ([], u_start m) (start_wf m)) as [W _]. apply (proj1 (W x)). now apply setd_lists.
    - apply mono23, (mono_st st I). destruct (wf_st st) as [W _]. apply (proj1 (W x)). now apply setd_lists.
    - apply (proj1 (wf3 x)). now apply setd_lists.
  Qed.
End Unit.

(** * The second writing *)
Lemma second_same tmp m idx : unit_ok m idx = true -> (forall x, tmp x = true -> fQ (o_use (module_use tmp0 m) x) = false) ->
  o_pre (module_use tmp m) = o_pre (module_use tmp0 m) /\ o_arms (module_use tmp m) = o_arms (module_use tmp0 m) /\
  o_post (module_use tmp m) = o_post (module_use tmp0 m).
Proof.
  intros OK T. unfold unit_ok in OK. apply andb_true_iff in OK as [OK OKpost]. apply andb_true_iff in OK as [OKpre OKst].
  rewrite forallb_forall in OKst.
  assert (T3 : same_on tmp (u3 tmp0 m)) by (eapply same_mono; [apply mono3|exact T]).
  assert (T2 : same_on tmp (u2 tmp0 m)) by (eapply same_mono; [apply mono23|exact T3]).
  assert (T1 : same_on tmp (u1 tmp0 m)) by (eapply same_mono; [apply mono12|exact T2]).
  rewrite !module_use_eq. cbn [o_pre o_arms o_post].
  destruct (same_tail _ _ tmp (k_pre m) (oks_toks _ _ _ OKpre) [] (u_start m) (u_start m) (start_wf m)) as [P1 P2].
  { eapply same_mono; [apply clear_mono|exact T1]. }
  assert (E1 : d1 tmp m = d1 tmp0 m) by exact P2.
  assert (ST : forall st, In st (k_states m) -> fst (st_an tmp m st) = fst (st_an tmp0 m st) /\ fst (snd (st_an tmp m st)) = fst (snd (st_an tmp0 m st))).
  { intros st I. unfold st_an. rewrite E1. apply (same_tail _ _ tmp (snd st) (OKst st I)); [apply wf1|].
    eapply same_mono; [apply (mono_st m st I)|exact T2]. }
  assert (E2 : d2 tmp m = d2 tmp0 m).
  { unfold d2. rewrite E1. f_equal. f_equal. apply map_ext_in. intros st I. apply (ST st I). }
  split; [exact P1|]. split.
  - apply map_ext_in. intros st I. now rewrite (proj1 (ST st I)).
  - unfold s_post. rewrite E2. apply (same_tail _ _ tmp (k_post m) (oks_toks _ _ _ OKpost)); [apply wf2|].
    eapply same_mono; [apply clear_mono|exact T3].
Qed.

(** * Runs: [ini n] values of the temporaries at the beginning of cycle [n], [edge n] what the clock edge ending the cycle makes of D
    (reset, inputs), [reidx n] what it makes of the index. *)
Section Run.
  Variables (o : kout) (tmp : var -> bool) (ini : nat -> store) (edge : nat -> var -> Z -> Z) (reidx : nat -> nat -> nat).
  Fixpoint krun (n : nat) (Q : store) (i : nat) : option (store * nat) :=
    match n with
    | O => Some (Q, i)
    | S k => do (Q1, i1) <- krun k Q i; do (D, i2) <- kcycle o Q1 (d_start tmp (ini k) Q1) i1; Some (fun x => edge k x (D x), reidx k i2)
    end.
  (** Values at the end of cycle [n], before the clock edge. *)
  Definition kend (n : nat) (Q : store) (i : nat) : option (store * nat) :=
    do (Q1, i1) <- krun n Q i; kcycle o Q1 (d_start tmp (ini n) Q1) i1.
End Run.

Lemma kcycle_code o o' : o_pre o = o_pre o' -> o_arms o = o_arms o' -> o_post o = o_post o' -> forall Q D i, kcycle o Q D i = kcycle o' Q D i.
Proof. intros A B C Q D i. unfold kcycle. now rewrite A, B, C. Qed.
