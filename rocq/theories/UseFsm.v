(** The uses of registers in the states of an algorithm: chains of the blocks visited by writeStatelessBlockGraph. *)
From Coq Require Import List Bool Arith ZArith Lia.
Import ListNotations.
From Verif Require Import FsmModel FsmRun FsmEmit FsmLayout FsmGather UseModel UseProofs UseSound UseTwo UseCycle.

(** Instructions of a block. *)
Definition cins1 (i : instr) : ch := match i with IAssign x e => KSet x e | IReturn => KIdx 0 end.
Definition cins (l : list instr) : list ch := map cins1 l.

Section Chain.
  Variable g : graph.
  Variable r : rst.
  Variable ffi : nat -> option nat.

  Definition goto_chain (x : nat) : option (list ch) := do i <- ffi x; Some [KIdx i].

  (** writeStatelessBlockGraph, 8788-9199: what it visits, in the order of [emit]. Updates of the usage: if 8834-8897, switch 8898-9000,
      while 9002-9038, return 9041-9078, call 9079-9094, wait 9095-9117. *)
  Fixpoint chain (fuel : nat) (entry : bool) (stop : option nat) (b : nat) : option (list ch) :=
    match fuel with
    | O => None
    | S f =>
        if entry && (match stop with Some _ => true | None => false end) && b_state (g b) then goto_chain b
        else
          let c1 := cins (b_ins (g b)) in
          let follow := fun x =>
            if b_state (g x) then goto_chain x
            else if match stop with Some t => Nat.eqb x t | None => false end then Some []
            else chain f false stop x in
          match b_end (g b) with
          | ENone => Some (c1 ++ [KIdx 0])
          | ENext None => None
          | ENext (Some x) => do c <- follow x; Some (c1 ++ c)
          | EIf e ib _ it eb _ et af =>
              do ci <- chain f true (Some af) ib;
              do ci <- (if dead r et && negb (dead r it) && negb (b_state (g af))
                        then do c <- chain f true stop af; Some (ci ++ c) else Some ci);
              do ce <- chain f true (Some af) eb;
              do ce <- (if dead r it && negb (dead r et) && negb (b_state (g af))
                        then do c <- chain f true stop af; Some (ce ++ c) else Some ce);
              let c := c1 ++ [KIf e ci ce] in
              if b_state (g af) then Some c
              else if (dead r et && negb (dead r it)) || (dead r it && negb (dead r et)) then Some c
              else do c' <- follow af; Some (c ++ c')
          | ESwitch e cs af =>
              do bs <- (fix all (cs : list (option Z * nat)) : option (list (option Z * list ch)) :=
                match cs with
                | [] => Some []
                | (v, cb) :: cs' => do c <- chain f true (Some af) cb; do bs <- all cs'; Some ((v, c) :: bs)
                end) cs;
              let c := c1 ++ [KCase e bs] in
              if b_state (g af) then Some c else do c' <- follow af; Some (c ++ c')
          | EWhile e it af =>
              do ci <- chain f true (Some af) it;
              if b_state (g af) then do n <- ffi af; Some (c1 ++ [KWhile e ci n])
              else do ce <- chain f true stop af; Some (c1 ++ [KIf e ci ce])
          | EWait e w n => do iw <- ffi w; do i_n <- ffi n; Some (c1 ++ [KRawIf (rewrite [] e) [KIdx i_n] [KIdx iw]])
          | ECall c sv cid go rt =>
              do i <- ffi go;
              Some (c1 ++ [KIdx i; KRaw ((match sv with Some v => [(v, VQ c)] | None => [] end) ++ [(c, VC cid)])])
          | ERet c rets =>
              do cs <- (fix all (rs : list (Z * nat * option var)) : option (list (option Z * list ch)) :=
                match rs with
                | [] => Some []
                | (cid, b, sv) :: rs' =>
                    do i <- ffi b; do cs <- all rs'; Some ((Some cid, [KIdx i; KRaw (match sv with Some v => [(c, VQ v)] | None => [] end)]) :: cs)
                end) rets;
              match cs with
              | [] => Some (c1 ++ [KIdx 0])
              | [(_, l)] => Some (c1 ++ l)
              | _ => Some (c1 ++ [KRawCase (VQ c) (cs ++ [(None, [KIdx 0])])])
              end
          end
    end.

  (** ** The code of the chain is the code of the state *)
  Definition codes (l : list ch) (deps : list var) (c : list vst) (d : list var) : Prop :=
    forall u, fst (anals tmp0 l (deps, u)) = c /\ fst (snd (anals tmp0 l (deps, u))) = d.

  Lemma krw_rewrite deps e : krw tmp0 deps e = rewrite deps e.
  Proof. induction e as [n|x|f a IH|f a IHa b IHb]; cbn [krw rewrite tmp0 orb]; congruence. Qed.
  Lemma codes_nil deps : codes [] deps [] deps.
  Proof. intros u. split; reflexivity. Qed.
  Lemma codes_app l1 l2 d0 c1 d1 c2 d2 : codes l1 d0 c1 d1 -> codes l2 d1 c2 d2 -> codes (l1 ++ l2) d0 (c1 ++ c2) d2.
  Proof.
    intros H1 H2 u. rewrite anals_app. cbn [fst snd]. destruct (H1 u) as [A B].
    destruct (snd (anals tmp0 l1 (d0, u))) as [d v]. cbn [fst] in B. subst d. destruct (H2 v) as [C D]. now rewrite A, C, D.
  Qed.
  Lemma codes_idx n deps : codes [KIdx n] deps [VIdx n] deps.
  Proof. intros u. split; reflexivity. Qed.
  Lemma codes_raw l deps : codes [KRaw l] deps (map (fun a => VSet (fst a) (snd a)) l) deps.
  Proof. intros u. cbn [anals anal fst snd]. rewrite app_nil_r. split; reflexivity. Qed.
  Lemma codes_ins l deps : codes (cins l) deps (fst (write_ins l deps)) (snd (write_ins l deps)).
  Proof.
    revert deps. induction l as [|[x e|] l IH]; intros deps; [apply codes_nil| |].
    - cbn [cins map cins1 write_ins]. specialize (IH (x :: deps)). destruct (write_ins l (x :: deps)) as [c d]. cbn [fst snd] in *.
      change (codes ([KSet x e] ++ cins l) deps ([VSet x (rewrite deps e)] ++ c) d). apply codes_app with (d1 := x :: deps); [|exact IH].
      intros u. cbn [anals anal fst snd app]. rewrite krw_rewrite. split; reflexivity.
    - cbn [cins map cins1 write_ins]. specialize (IH deps). destruct (write_ins l deps) as [c d]. cbn [fst snd] in *.
      change (codes ([KIdx 0] ++ cins l) deps ([VIdx 0] ++ c) d). apply codes_app with (d1 := deps); [apply codes_idx|exact IH].
  Qed.
  Lemma codes_if e a b deps ca da cb db : codes a deps ca da -> codes b deps cb db ->
    codes [KIf e a b] deps [VIf (rewrite deps e) ca cb] (deps ++ da ++ db).
  Proof.
    intros A B u. rewrite anals_cons. cbn [anals fst snd]. rewrite anal_if. cbv zeta. cbn [fst snd]. destruct (A (kread tmp0 deps e u)) as [A1 A2].
    destruct (B (kread tmp0 deps e u)) as [B1 B2]. rewrite A1, A2, B1, B2, krw_rewrite. split; reflexivity.
  Qed.
  Lemma codes_while e a n deps ca da : codes a deps ca da -> codes [KWhile e a n] deps [VIf (rewrite deps e) ca [VIdx n]] (deps ++ da ++ deps).
  Proof.
    intros A u. rewrite anals_cons. cbn [anals fst snd]. rewrite anal_while. cbv zeta. cbn [fst snd]. destruct (A (kread tmp0 deps e u)) as [A1 A2].
    rewrite A1, A2, krw_rewrite. split; reflexivity.
  Qed.

  Lemma goto_codes x deps c d q : goto_state ffi x deps = Some (c, d, q) -> exists l, goto_chain x = Some l /\ codes l deps c d.
  Proof.
    unfold goto_state, goto_chain. destruct (ffi x) as [i|]; [|discriminate]. cbn [obind]. intros H. injection H as <- <- <-.
    eexists. split; [reflexivity|apply codes_idx].
  Qed.

  Lemma emit_chain f : forall entry stop b deps c d q, emit g r ffi f entry stop b deps = Some (c, d, q) ->
    exists l, chain f entry stop b = Some l /\ codes l deps c d.
  Proof.
    induction f as [|f IH]; intros entry stop b deps c d q H; [discriminate|].
    cbn [emit chain] in *.
    destruct (entry && match stop with Some _ => true | None => false end && b_state (g b)); [now apply goto_codes in H|].
    pose proof (codes_ins (b_ins (g b)) deps) as CI. destruct (write_ins (b_ins (g b)) deps) as [c1 d1]. cbn [fst snd] in CI.
    assert (FO : forall x d0 c d q,
      (if b_state (g x) then goto_state ffi x d0
       else if match stop with Some t => Nat.eqb x t | None => false end then Some ([], d0, [])
       else emit g r ffi f false stop x d0) = Some (c, d, q) ->
      exists l, (if b_state (g x) then goto_chain x
                 else if match stop with Some t => Nat.eqb x t | None => false end then Some []
                 else chain f false stop x) = Some l /\ codes l d0 c d).
    { intros x d0 c' d' q'. destruct (b_state (g x)); [apply goto_codes|].
      destruct (match stop with Some t => Nat.eqb x t | None => false end); [|apply IH].
      intros E. injection E as <- <- <-. exists []. split; [reflexivity|apply codes_nil]. }
    destruct (b_end (g b)) as [|[x|]|e ib fi it eb fe et af|e cs af|e it af|e w n|cr sv cid go rt|cr rets].
    - injection H as <- <- <-. eexists. split; [reflexivity|]. eapply codes_app; [exact CI|apply codes_idx].
    - match type of H with obind ?o _ = _ => destruct o as [[[c2 d2] q2]|] eqn:E; [|discriminate] end. cbn [obind] in H. injection H as <- <- <-.
      destruct (FO _ _ _ _ _ E) as (l & -> & CL). cbn [obind]. eexists. split; [reflexivity|]. eapply codes_app; eassumption.
    - discriminate.
    - destruct (emit g r ffi f true (Some af) ib d1) as [[[ci di] qi]|] eqn:Ei; [|discriminate]. cbn [obind] in H.
      destruct (IH _ _ _ _ _ _ _ Ei) as (li & -> & CLi). cbn [obind].
      match type of H with obind ?o _ = _ => destruct o as [[[ci2 di2] qi2]|] eqn:Ei2; [|discriminate] end. cbn [obind] in H.
      assert (Xi : exists li2, (if dead r et && negb (dead r it) && negb (b_state (g af)) then do c <- chain f true stop af; Some (li ++ c) else Some li) = Some li2 /\ codes li2 d1 ci2 di2).
      { destruct (dead r et && negb (dead r it) && negb (b_state (g af))).
        - destruct (emit g r ffi f true stop af di) as [[[ca da] qa]|] eqn:Ea; [|discriminate]. cbn [obind] in Ei2. injection Ei2 as <- <- <-.
          destruct (IH _ _ _ _ _ _ _ Ea) as (la & -> & CLa). cbn [obind]. eexists. split; [reflexivity|]. eapply codes_app; eassumption.
        - injection Ei2 as <- <- <-. eexists. split; [reflexivity|exact CLi]. }
      destruct Xi as (li2 & -> & CLi2). cbn [obind].
      destruct (emit g r ffi f true (Some af) eb d1) as [[[ce de] qe]|] eqn:Ee; [|discriminate]. cbn [obind] in H.
      destruct (IH _ _ _ _ _ _ _ Ee) as (le & -> & CLe). cbn [obind].
      match type of H with obind ?o _ = _ => destruct o as [[[ce2 de2] qe2]|] eqn:Ee2; [|discriminate] end. cbn [obind] in H.
      assert (Xe : exists le2, (if dead r it && negb (dead r et) && negb (b_state (g af)) then do c <- chain f true stop af; Some (le ++ c) else Some le) = Some le2 /\ codes le2 d1 ce2 de2).
      { destruct (dead r it && negb (dead r et) && negb (b_state (g af))).
        - destruct (emit g r ffi f true stop af de) as [[[ca da] qa]|] eqn:Ea; [|discriminate]. cbn [obind] in Ee2. injection Ee2 as <- <- <-.
          destruct (IH _ _ _ _ _ _ _ Ea) as (la & -> & CLa). cbn [obind]. eexists. split; [reflexivity|]. eapply codes_app; eassumption.
        - injection Ee2 as <- <- <-. eexists. split; [reflexivity|exact CLe]. }
      destruct Xe as (le2 & -> & CLe2). cbn [obind].
      assert (CC : codes (cins (b_ins (g b)) ++ [KIf e li2 le2]) deps (c1 ++ [VIf (rewrite d1 e) ci2 ce2]) (d1 ++ di2 ++ de2)).
      { eapply codes_app; [exact CI|]. now apply codes_if. }
      destruct (b_state (g af)); [injection H as <- <- <-; eexists; split; [reflexivity|exact CC]|].
      destruct (dead r et && negb (dead r it) || dead r it && negb (dead r et)); [injection H as <- <- <-; eexists; split; [reflexivity|exact CC]|].
      match type of H with obind ?o _ = _ => destruct o as [[[c3 d3] q3]|] eqn:E3; [|discriminate] end. cbn [obind] in H. injection H as <- <- <-.
      destruct (match stop with Some t => Nat.eqb af t | None => false end) eqn:ES.
      + injection E3 as <- <- <-. cbn [obind]. eexists. split; [reflexivity|]. eapply codes_app; [exact CC|apply codes_nil].
      + destruct (IH _ _ _ _ _ _ _ E3) as (l & -> & CL). cbn [obind]. eexists. split; [reflexivity|]. eapply codes_app; eassumption.
    - match type of H with obind ?o _ = _ => destruct o as [[[bs ds] qs]|] eqn:E; [|discriminate] end. cbn [obind] in H.
      assert (X : exists ls, (fix all (cs : list (option Z * nat)) : option (list (option Z * list ch)) :=
                match cs with
                | [] => Some []
                | (v, cb) :: cs' => do c <- chain f true (Some af) cb; do bs <- all cs'; Some ((v, c) :: bs)
                end) cs = Some ls /\ forall u, fst (fst (anal_cases tmp0 ls (d1, u))) = bs /\ snd (fst (anal_cases tmp0 ls (d1, u))) = ds).
      { clear H FO. revert bs ds qs E. induction cs as [|[v cb] cs IHc]; intros bs ds qs E.
        - injection E as <- <- <-. exists []. split; [reflexivity|]. intros u. split; reflexivity.
        - destruct (emit g r ffi f true (Some af) cb d1) as [[[cc dc] qc]|] eqn:Ec; [|discriminate]. cbn [obind] in E.
          match type of E with obind ?o _ = _ => destruct o as [[[bs2 ds2] qs2]|] eqn:E2; [|discriminate] end. cbn [obind] in E. injection E as <- <- <-.
          destruct (IH _ _ _ _ _ _ _ Ec) as (lc & -> & CLc). destruct (IHc _ _ _ eq_refl) as (ls & -> & CLs). cbn [obind].
          eexists. split; [reflexivity|]. intros u. rewrite cases_cons. cbn [fst snd]. destruct (CLc u) as [A1 A2]. destruct (CLs u) as [B1 B2].
          now rewrite A1, A2, B1, B2. }
      destruct X as (ls & -> & CLs). cbn [obind].
      assert (CC : codes (cins (b_ins (g b)) ++ [KCase e ls]) deps (c1 ++ [VCase (rewrite d1 e) bs]) (d1 ++ ds)).
      { eapply codes_app; [exact CI|]. intros u. rewrite anals_cons. cbn [anals fst snd]. rewrite anal_case. cbv zeta. cbn [fst snd].
        destruct (CLs (kread tmp0 d1 e u)) as [A1 A2]. rewrite A1, A2, krw_rewrite. split; reflexivity. }
      destruct (b_state (g af)); [injection H as <- <- <-; eexists; split; [reflexivity|exact CC]|].
      match type of H with obind ?o _ = _ => destruct o as [[[c3 d3] q3]|] eqn:E3; [|discriminate] end. cbn [obind] in H. injection H as <- <- <-.
      destruct (match stop with Some t => Nat.eqb af t | None => false end) eqn:ES.
      + injection E3 as <- <- <-. cbn [obind]. eexists. split; [reflexivity|]. eapply codes_app; [exact CC|apply codes_nil].
      + destruct (IH _ _ _ _ _ _ _ E3) as (l & -> & CL). cbn [obind]. eexists. split; [reflexivity|]. eapply codes_app; eassumption.
    - destruct (emit g r ffi f true (Some af) it d1) as [[[ci di] qi]|] eqn:Ei; [|discriminate]. cbn [obind] in H.
      destruct (IH _ _ _ _ _ _ _ Ei) as (li & -> & CLi). cbn [obind].
      match type of H with obind ?o _ = _ => destruct o as [[[ce de] qe]|] eqn:Ee; [|discriminate] end. cbn [obind] in H. injection H as <- <- <-.
      destruct (b_state (g af)).
      + unfold goto_state in Ee. destruct (ffi af) as [n|]; [|discriminate]. cbn [obind] in *. injection Ee as <- <- <-.
        eexists. split; [reflexivity|]. eapply codes_app; [exact CI|]. now apply codes_while.
      + destruct (IH _ _ _ _ _ _ _ Ee) as (le & -> & CLe). cbn [obind]. eexists. split; [reflexivity|]. eapply codes_app; [exact CI|]. now apply codes_if.
    - destruct (ffi w) as [iw|]; [|discriminate]. destruct (ffi n) as [i_n|]; [|discriminate]. cbn [obind] in *. injection H as <- <- <-.
      eexists. split; [reflexivity|]. eapply codes_app; [exact CI|]. intros u. rewrite anals_cons. cbn [anals fst snd]. rewrite anal_rawif. split; reflexivity.
    - destruct (ffi go) as [i|]; [|discriminate]. cbn [obind] in *. injection H as <- <- <-.
      eexists. split; [reflexivity|]. eapply codes_app; [exact CI|].
      match goal with |- codes [?a; KRaw ?l] _ _ _ => change [a; KRaw l] with ([a] ++ [KRaw l]); pose proof (codes_raw l d1) as CR end.
      pose proof (codes_app _ _ _ _ _ _ _ (codes_idx i d1) CR) as CA. destruct sv as [v|]; exact CA.
    - match type of H with obind ?o _ = _ => destruct o as [cs|] eqn:E; [|discriminate] end. cbn [obind] in H.
      assert (X : exists ls, (fix all (rs : list (Z * nat * option var)) : option (list (option Z * list ch)) :=
                match rs with
                | [] => Some []
                | (cid, b, sv) :: rs' =>
                    do i <- ffi b; do cs <- all rs'; Some ((Some cid, [KIdx i; KRaw (match sv with Some v => [(cr, VQ v)] | None => [] end)]) :: cs)
                end) rets = Some ls /\ length ls = length cs /\ (forall s, raw_cases tmp0 ls s = cs) /\ (forall d, Forall2 (fun l c => codes (snd l) d (snd c) d) ls cs)).
      { clear H FO. revert cs E. induction rets as [|[[cid b'] sv] rs IHr]; intros cs E.
        - injection E as <-. exists []. repeat split; constructor.
        - destruct (ffi b') as [i|]; [|discriminate]. cbn [obind] in *.
          match type of E with obind ?o _ = _ => destruct o as [cs2|] eqn:E2; [|discriminate] end. cbn [obind] in E. injection E as <-.
          destruct (IHr _ eq_refl) as (ls & -> & L & R & F). cbn [obind]. eexists. split; [reflexivity|]. split; [cbn [length]; now rewrite L|]. split.
          + intros s. unfold raw_cases in *. cbn [map fst snd]. rewrite R. f_equal. f_equal. destruct s as [d0 u0]. destruct sv; reflexivity.
          + intros d0. constructor; [|apply F]. cbn [snd].
            match goal with |- codes [?a; KRaw ?l] _ _ _ => change [a; KRaw l] with ([a] ++ [KRaw l]); pose proof (codes_raw l d0) as CR end.
            pose proof (codes_app _ _ _ _ _ _ _ (codes_idx i d0) CR) as CA. destruct sv as [v|]; exact CA. }
      destruct X as (ls & -> & L & R & F). cbn [obind].
      destruct cs as [|[v0 c0] [|cs0 cs]]; destruct ls as [|[v0' l0] [|ls0 ls]]; try discriminate L.
      + injection H as <- <- <-. eexists. split; [reflexivity|]. eapply codes_app; [exact CI|apply codes_idx].
      + injection H as <- <- <-. eexists. split; [reflexivity|]. eapply codes_app; [exact CI|]. specialize (F d1). inversion F as [|a1 a2 a3 a4 F1 F2]; subst. exact F1.
      + injection H as <- <- <-. eexists. split; [reflexivity|]. eapply codes_app; [exact CI|]. intros u. rewrite anals_cons. cbn [anals fst snd]. rewrite anal_rawcase.
        cbn [fst snd]. split; [|reflexivity]. specialize (R (d1, u)). unfold raw_cases in *. rewrite map_app, R. reflexivity.
  Qed.

  (** ** The chains considered *)
  Variable q : var -> bool.
  (** Loops begin a state; registers of calls and done signals are in [q]. *)
  Definition end_ok (k : blk) : Prop :=
    match b_end k with
    | EWhile _ _ _ => b_state k = true
    | EWait e _ _ => forallb q (evars e) = true
    | ECall c sv _ _ _ => q c = true /\ (forall v, sv = Some v -> q v = true)
    | ERet c rs => q c = true /\ Forall (fun x : Z * nat * option var => forall v, snd x = Some v -> q v = true) rs
    | _ => True
    end.
  Hypothesis ends : forall b, end_ok (g b).

  Lemma all_p_any l : forallb all_p l = true.
  Proof. apply forallb_forall. reflexivity. Qed.
  Lemma oks_app a b : oks q all_p (a ++ b) = oks q all_p a && oks q all_p b.
  Proof. apply forallb_app. Qed.
  Lemma ins_ok l : oks q all_p (cins l) = true.
  Proof. unfold oks, cins. apply forallb_forall. intros c I. apply in_map_iff in I as ([x e|] & <- & _); [apply all_p_any|reflexivity]. Qed.
  Lemma vvars_rewrite e : vvars (rewrite [] e) = evars e.
  Proof. induction e as [n|x|f a IH|f a IHa b IHb]; cbn [rewrite memb existsb vvars evars]; congruence. Qed.

  Lemma toks_app a b : oks q all_p a = true -> toks q all_p b = true -> toks q all_p (a ++ b) = true.
  Proof.
    unfold oks. induction a as [|c a IH]; intros A B; [exact B|]. cbn [forallb] in A. apply andb_true_iff in A as [A1 A2].
    cbn [app]. destruct (a ++ b) as [|c' r'] eqn:E; [cbn [toks]; now rewrite A1|]. rewrite toks_cons, A1. now apply IH.
  Qed.

  Lemma chain_ok f : forall entry stop b l, chain f entry stop b = Some l ->
    toks q all_p l = true /\ ((b_state (g b) = false \/ (entry = true /\ stop <> None)) -> oks q all_p l = true).
  Proof.
    induction f as [|f IH]; intros entry stop b l H; [discriminate|]. cbn [chain] in H.
    assert (GO : forall x l, goto_chain x = Some l -> oks q all_p l = true).
    { intros x l0 E. unfold goto_chain in E. destruct (ffi x); [|discriminate]. injection E as <-. reflexivity. }
    destruct (entry && match stop with Some _ => true | None => false end && b_state (g b)) eqn:EE.
    { apply GO in H. split; [now apply oks_toks|auto]. }
    assert (SUB : forall af x l, chain f true (Some af) x = Some l -> oks q all_p l = true).
    { intros af x l0 E. apply IH in E as [_ E]. apply E. right. split; [reflexivity|discriminate]. }
    assert (FO : forall x l, (if b_state (g x) then goto_chain x
                 else if match stop with Some t => Nat.eqb x t | None => false end then Some [] else chain f false stop x) = Some l -> oks q all_p l = true).
    { intros x l0 E. destruct (b_state (g x)) eqn:S; [now apply GO in E|].
      destruct (match stop with Some t => Nat.eqb x t | None => false end); [injection E as <-; reflexivity|]. apply IH in E as [_ E]. auto. }
    assert (AF : forall x l, b_state (g x) = false -> chain f true stop x = Some l -> oks q all_p l = true).
    { intros x l0 S E. apply IH in E as [_ E]. auto. }
    pose proof (ins_ok (b_ins (g b))) as CI. pose proof (ends b) as EB. unfold end_ok in EB.
    assert (FIN : forall l', oks q all_p (cins (b_ins (g b)) ++ l') = true -> l = cins (b_ins (g b)) ++ l' ->
      toks q all_p l = true /\ ((b_state (g b) = false \/ (entry = true /\ stop <> None)) -> oks q all_p l = true)).
    { intros l' O ->. split; [now apply oks_toks|auto]. }
    destruct (b_end (g b)) as [|[x|]|e ib fi it eb fe et af|e cs af|e it af|e w n|cr sv cid go rt|cr rets] eqn:EN.
    - injection H as <-. eapply FIN; [|reflexivity]. rewrite oks_app, CI. reflexivity.
    - match type of H with obind ?o _ = _ => destruct o as [c|] eqn:E; [|discriminate] end. cbn [obind] in H. injection H as <-.
      eapply FIN; [|reflexivity]. rewrite oks_app, CI. now apply FO in E.
    - discriminate.
    - destruct (chain f true (Some af) ib) as [ci|] eqn:Ei; [|discriminate]. cbn [obind] in H. apply SUB in Ei.
      match type of H with obind ?o _ = _ => destruct o as [ci2|] eqn:Ei2; [|discriminate] end. cbn [obind] in H.
      assert (Oi : oks q all_p ci2 = true).
      { destruct (dead r et && negb (dead r it) && negb (b_state (g af))) eqn:C; [|injection Ei2 as <-; exact Ei].
        apply andb_true_iff in C as [_ C]. apply negb_true_iff in C.
        destruct (chain f true stop af) as [ca|] eqn:Ea; [|discriminate]. cbn [obind] in Ei2. injection Ei2 as <-. rewrite oks_app, Ei. now apply AF in Ea. }
      destruct (chain f true (Some af) eb) as [ce|] eqn:Ee; [|discriminate]. cbn [obind] in H. apply SUB in Ee.
      match type of H with obind ?o _ = _ => destruct o as [ce2|] eqn:Ee2; [|discriminate] end. cbn [obind] in H.
      assert (Oe : oks q all_p ce2 = true).
      { destruct (dead r it && negb (dead r et) && negb (b_state (g af))) eqn:C; [|injection Ee2 as <-; exact Ee].
        apply andb_true_iff in C as [_ C]. apply negb_true_iff in C.
        destruct (chain f true stop af) as [ca|] eqn:Ea; [|discriminate]. cbn [obind] in Ee2. injection Ee2 as <-. rewrite oks_app, Ee. now apply AF in Ea. }
      assert (OC : oks q all_p (cins (b_ins (g b)) ++ [KIf e ci2 ce2]) = true).
      { rewrite oks_app, CI. unfold oks at 1. cbn [forallb]. rewrite ok_if, all_p_any, Oi, Oe. reflexivity. }
      destruct (b_state (g af)) eqn:SA; [injection H as <-; eapply FIN; [exact OC|reflexivity]|].
      destruct (dead r et && negb (dead r it) || dead r it && negb (dead r et)); [injection H as <-; eapply FIN; [exact OC|reflexivity]|].
      match type of H with obind ?o _ = _ => destruct o as [c3|] eqn:E3; [|discriminate] end. cbn [obind] in H. injection H as <-.
      eapply FIN; [|symmetry; apply app_assoc]. rewrite app_assoc, oks_app, OC. cbn [andb].
      apply (FO af). rewrite SA. exact E3.
    - match type of H with obind ?o _ = _ => destruct o as [bs|] eqn:E; [|discriminate] end. cbn [obind] in H.
      assert (OB : forallb (fun c => oks q all_p (snd c)) bs = true).
      { clear H EN. revert bs E. induction cs as [|[v cb] cs IHc]; intros bs E; [injection E as <-; reflexivity|].
        destruct (chain f true (Some af) cb) as [c|] eqn:Ec; [|discriminate]. cbn [obind] in E.
        match type of E with obind ?o _ = _ => destruct o as [bs2|] eqn:E2; [|discriminate] end. cbn [obind] in E. injection E as <-.
        cbn [forallb snd]. apply SUB in Ec. rewrite Ec. exact (IHc _ eq_refl). }
      assert (OC : oks q all_p (cins (b_ins (g b)) ++ [KCase e bs]) = true).
      { rewrite oks_app, CI. unfold oks at 1. cbn [forallb]. rewrite ok_case, all_p_any, OB. reflexivity. }
      destruct (b_state (g af)) eqn:SA; [injection H as <-; eapply FIN; [exact OC|reflexivity]|].
      match type of H with obind ?o _ = _ => destruct o as [c3|] eqn:E3; [|discriminate] end. cbn [obind] in H. injection H as <-.
      eapply FIN; [|symmetry; apply app_assoc]. rewrite app_assoc, oks_app, OC. cbn [andb].
      apply (FO af). rewrite SA. exact E3.
    - destruct (chain f true (Some af) it) as [ci|] eqn:Ei; [|discriminate]. cbn [obind] in H. apply SUB in Ei.
      assert (NS : b_state (g b) = false \/ (entry = true /\ stop <> None) -> False).
      { intros [S|[-> S]]; [congruence|]. rewrite EB in EE. destruct stop; [discriminate EE|now apply S]. }
      split; [|intros X; now apply NS in X].
      destruct (b_state (g af)) eqn:SA.
      + destruct (ffi af) as [n|]; [|discriminate]. cbn [obind] in H. injection H as <-. apply toks_app; [exact CI|].
        cbn [toks]. rewrite all_p_any, Ei. apply orb_true_r.
      + destruct (chain f true stop af) as [ce|] eqn:Ee; [|discriminate]. cbn [obind] in H. injection H as <-. apply oks_toks.
        rewrite oks_app, CI. unfold oks at 1. cbn [forallb]. rewrite ok_if, all_p_any, Ei, (AF af ce SA Ee). reflexivity.
    - destruct (ffi w) as [iw|]; [|discriminate]. destruct (ffi n) as [i_n|]; [|discriminate]. cbn [obind] in H. injection H as <-.
      eapply FIN; [|reflexivity]. rewrite oks_app, CI. unfold oks. cbn [forallb]. rewrite ok_rawif, vvars_rewrite, EB. reflexivity.
    - destruct (ffi go) as [i|]; [|discriminate]. cbn [obind] in H. injection H as <-. destruct EB as [EB1 EB2].
      eapply FIN; [|reflexivity]. rewrite oks_app, CI. unfold oks. cbn [forallb okc]. destruct sv as [v|]; cbn [app forallb fst snd vvars]; rewrite EB1; [|reflexivity].
      now rewrite (EB2 v eq_refl).
    - match type of H with obind ?o _ = _ => destruct o as [cs|] eqn:E; [|discriminate] end. cbn [obind] in H. destruct EB as [EB1 EB2].
      assert (OB : forallb (fun c => oks q all_p (snd c)) cs = true /\ forallb (fun c => forallb inert (snd c)) cs = true).
      { clear H EN FIN. revert cs E. induction rets as [|[[cid b'] sv] rs IHr]; intros cs E; [injection E as <-; split; reflexivity|].
        inversion EB2 as [|a1 a2 F1 F2]; subst. cbn [snd] in F1.
        destruct (ffi b') as [i|]; [|discriminate]. cbn [obind] in E.
        match type of E with obind ?o _ = _ => destruct o as [bs2|] eqn:E2; [|discriminate] end. cbn [obind] in E. injection E as <-.
        destruct (IHr F2 _ eq_refl) as [I1 I2]. cbn [forallb snd]. rewrite I1, I2. split; [|reflexivity].
        unfold oks. cbn [forallb okc]. destruct sv as [v|]; cbn [forallb fst snd vvars]; [rewrite EB1, (F1 v eq_refl)|]; reflexivity. }
      destruct OB as [O1 O2]. destruct cs as [|[v0 c0] [|cs0 cs]].
      + injection H as <-. eapply FIN; [|reflexivity]. rewrite oks_app, CI. reflexivity.
      + injection H as <-. eapply FIN; [|reflexivity]. rewrite oks_app, CI. cbn [forallb snd] in O1. now rewrite andb_true_r in O1.
      + injection H as <-. eapply FIN; [|reflexivity]. rewrite oks_app, CI. unfold oks. cbn [forallb]. rewrite andb_true_r.
        change ((v0, c0) :: cs0 :: cs ++ [(None, [KIdx 0])]) with (((v0, c0) :: cs0 :: cs) ++ [(None, [KIdx 0])]).
        rewrite ok_rawcase, !forallb_app, O1, O2. cbn [vvars forallb]. rewrite EB1. reflexivity.
  Qed.
End Chain.

(** The chains of the states, in the order of [write_states]. *)
Fixpoint state_chains (fuel : nat) (g : graph) (r : rst) (last : nat) (deps0 : list var) (q produced : list nat)
  : option (list (nat * list ch)) :=
  match q with
  | [] => Some []
  | b :: q' =>
      match fuel with
      | O => None
      | S f =>
          match r_sid r b with
          | None => None
          | Some id =>
              if memb b produced then state_chains f g r last deps0 q' produced
              else
                do (_, _, ps) <- emit g r (ff_index f g r last) f true None b deps0;
                do c <- chain g r (ff_index f g r last) f true None b;
                do ps' <- somes (map (fast_forward f g) (filter (fun x => b_state (g x)) ps));
                do sts <- state_chains f g r last deps0 (q' ++ ps') (b :: produced);
                Some ((id, c) :: sts)
          end
      end
  end.

Lemma states_chains fuel g r last deps0 : forall q produced arms, write_states fuel g r last deps0 q produced = Some arms ->
  exists sts, state_chains fuel g r last deps0 q produced = Some sts /\
    (forall u, map (fun st => (fst st, fst (anals tmp0 (snd st) (deps0, u)))) sts = arms) /\
    (forall Q, (forall b, end_ok Q (g b)) -> forallb (fun st => toks Q all_p (snd st)) sts = true).
Proof.
  induction fuel as [|f IH]; intros q produced arms H.
  - destruct q; [|discriminate]. injection H as <-. exists []. split; [reflexivity|]. split; reflexivity.
  - destruct q as [|b q']; cbn [write_states state_chains] in *.
    { injection H as <-. exists []. split; [reflexivity|]. split; reflexivity. }
    destruct (r_sid r b) as [id|]; [|discriminate]. destruct (memb b produced); [now apply IH|].
    destruct (emit g r (ff_index f g r last) f true None b deps0) as [[[c d] ps]|] eqn:E; [|discriminate]. cbn [obind] in *.
    destruct (somes (map (fast_forward f g) (filter (fun x => b_state (g x)) ps))) as [ps'|]; [|discriminate]. cbn [obind] in *.
    destruct (write_states f g r last deps0 (q' ++ ps') (b :: produced)) as [arms'|] eqn:EW; [|discriminate]. cbn [obind] in H. injection H as <-.
    destruct (IH _ _ _ EW) as (sts & -> & A & B). destruct (emit_chain g r (ff_index f g r last) f _ _ _ _ _ _ _ E) as (l & EL & CL). rewrite EL. cbn [obind].
    eexists. split; [reflexivity|]. split.
    + intros u. cbn [map fst snd]. rewrite A. now rewrite (proj1 (CL u)).
    + intros Q EO. cbn [forallb snd]. rewrite (B Q EO). destruct (chain_ok g r (ff_index f g r last) Q EO f _ _ _ _ EL) as [-> _]. reflexivity.
Qed.

(** * Loops begin a state *)
Fixpoint jdone (st : stmt) : list var :=
  match st with
  | SBlock l => flat_map jdone l
  | SIf _ l => flat_map jdone l
  | SIfElse _ l1 l2 => flat_map jdone l1 ++ flat_map jdone l2
  | SSwitch _ cs => flat_map (fun c => flat_map jdone (snd c)) cs
  | SWhile _ l => flat_map jdone l
  | SJoin d _ => evars d
  | _ => []
  end.
Definition jdones (l : list stmt) : list var := flat_map jdone l.

Section Loops.
  Variable q : var -> bool.
  Variable fuel : nat.
  Definition WS (s : gst) : Prop := forall b, end_ok q (g_blk s b).
  Definition WK (c : nat) (s s' : gst) : Prop := g_next s <= g_next s' /\ (WS s -> WS s') /\
    forall b, b < g_next s -> b <> c -> b_end (g_blk s' b) = b_end (g_blk s b).

  Definition plain_end (e : endact) : Prop := match e with EWhile _ _ _ | EWait _ _ _ | ECall _ _ _ _ _ | ERet _ _ => False | _ => True end.
  Lemma wk_refl c s : WK c s s.
  Proof. split; [lia|]. split; auto. Qed.
  Lemma wk_end c s s1 b e : WK c s s1 -> b = c \/ g_next s <= b -> plain_end e -> WK c s (st_end s1 b e).
  Proof.
    intros (A & B & C) H P. split; [exact A|]. split.
    - intros W x. unfold end_ok. destruct (Nat.eq_dec x b) as [->|N].
      + rewrite e_end_same. destruct e; try exact I; destruct P.
      + rewrite e_end by exact N. apply (B W x).
    - intros x L N. rewrite e_end by (destruct H; lia). auto.
  Qed.
  Lemma wk_state c s s1 b : WK c s s1 -> WK c s (st_state s1 b true).
  Proof.
    intros (A & B & C). split; [exact A|]. split.
    - intros W x. unfold end_ok. rewrite e_state. pose proof (B W x) as H. unfold end_ok in H.
      destruct (b_end (g_blk s1 x)); try exact H. destruct (Nat.eq_dec x b) as [->|N]; [apply s_state_same|now rewrite s_state].
    - intros x L N. rewrite e_state. auto.
  Qed.
  Lemma wk_add c s s1 : WK c s s1 -> WK c s (addb s1).
  Proof.
    intros (A & B & C). split; [rewrite n_addb; lia|]. split.
    - intros W x. destruct (Nat.eq_dec x (g_next s1)) as [->|N]; [rewrite b_addb_new; exact I|]. rewrite b_addb by exact N. apply (B W x).
    - intros x L N. rewrite b_addb by lia. auto.
  Qed.
  Lemma wk_trans c c2 s s1 s2 : WK c s s1 -> WK c2 s1 s2 -> c2 = c \/ g_next s <= c2 -> WK c s s2.
  Proof.
    intros (A & B & C) (A2 & B2 & C2) H. split; [lia|]. split; [auto|]. intros x L N. rewrite C2 by (destruct H; lia). auto.
  Qed.
  (** Changes which keep the end actions and the states. *)
  Lemma wk_same c s s1 s2 : WK c s s1 -> g_next s2 = g_next s1 -> (forall b, b_end (g_blk s2 b) = b_end (g_blk s1 b)) ->
    (forall b, b_state (g_blk s2 b) = b_state (g_blk s1 b)) -> WK c s s2.
  Proof.
    intros (A & B & C) N E S. split; [lia|]. split.
    - intros W x. unfold end_ok. rewrite E. pose proof (B W x) as H. unfold end_ok in H. destruct (b_end (g_blk s1 x)); try exact H. now rewrite S.
    - intros x L M. rewrite E. auto.
  Qed.

  Definition wk_post (cur : nat) (s : gst) (c' : nat) (s' : gst) : Prop := WK cur s s' /\ c' < g_next s' /\ (c' = cur \/ g_next s <= c').
  Definition wk_ok (st : stmt) : Prop := (forall x, In x (jdone st) -> q x = true) ->
    forall brk cur s c' s', gather fuel brk st cur s = Some (c', s') -> cur < g_next s -> wk_post cur s c' s'.

  Lemma wk_list l : Forall wk_ok l -> (forall x, In x (jdones l) -> q x = true) -> forall brk cur s c' s', gather_list fuel brk l cur s = Some (c', s') -> cur < g_next s -> wk_post cur s c' s'.
  Proof.
    intros F. induction F as [|x r Hx Hr IH]; intros J brk cur s c' s' H L.
    - cbn in H. apply spair in H as [<- <-]. split; [apply wk_refl|]. auto.
    - rewrite gather_list_cons in H. destruct (gather fuel brk x cur s) as [[c1 s1]|] eqn:G; [|discriminate]. cbn [obind] in H.
      destruct (Hx (fun y Iy => J y (in_or_app _ _ _ (or_introl Iy))) _ _ _ _ _ G L) as (K1 & L1 & D1).
      destruct (IH (fun y Iy => J y (in_or_app _ _ _ (or_intror Iy))) _ _ _ _ _ H L1) as (K2 & L2 & D2).
      split; [eapply wk_trans; eassumption|]. split; [exact L2|]. destruct K1 as (K1 & _). destruct D2 as [->|D2]; [exact D1|right; lia].
  Qed.
  Lemma wk_block l : Forall wk_ok l -> (forall x, In x (jdones l) -> q x = true) -> forall brk cur s c' s', gblock fuel brk l cur s = Some (c', s') -> cur < g_next s -> wk_post cur s c' s'.
  Proof.
    intros F J brk cur s c' s' H L. unfold gblock in H.
    destruct (gather_list fuel brk l (g_next s) (st_next (addb s) cur (g_next s))) as [[a s3]|] eqn:G; [|discriminate].
    cbn [obind] in H. apply spair in H as [<- <-].
    assert (K0 : WK cur s (st_next (addb s) cur (g_next s))) by (apply wk_end; [apply wk_add, wk_refl|now left|exact I]).
    destruct (wk_list l F J _ _ _ _ _ G) as (K1 & L1 & D1); [unfold st_next; rewrite n_end, n_addb; lia|].
    assert (K2 : WK cur s s3) by (eapply wk_trans; [exact K0|exact K1|right; lia]).
    destruct K1 as (N1 & _). unfold st_next in N1. rewrite n_end, n_addb in N1. destruct D1 as [->|D1].
    - split; [|split; [unfold st_next; rewrite n_end, n_addb; lia|right; lia]]. apply wk_end; [now apply wk_add|right; lia|exact I].
    - unfold st_next in D1. rewrite n_end, n_addb in D1. split; [|split; [unfold st_next; rewrite n_end, n_addb; lia|right; lia]]. apply wk_end; [now apply wk_add|right; lia|exact I].
  Qed.
  Lemma wk_cases af cs : Forall (fun c => Forall wk_ok (snd c)) cs -> (forall x, In x (flat_map (fun c => jdones (snd c)) cs) -> q x = true) ->
    forall brk s bs s' c, gcases fuel brk af cs s = Some (bs, s') -> WK c s s'.
  Proof.
    intros F. induction F as [|[v l] r Hx Hr IH]; intros J brk s bs s' c H.
    - cbn in H. apply spair in H as [<- <-]. apply wk_refl.
    - cbn [gcases] in H. destruct (gblock fuel brk l (g_next s) (addb s)) as [[ca s2]|] eqn:G; [|discriminate]. cbn [obind] in H.
      destruct (gcases fuel brk af r (st_next s2 ca af)) as [[bs' s3]|] eqn:G2; [|discriminate]. cbn [obind] in H. apply spair in H as [<- <-].
      destruct (wk_block l Hx (fun y Iy => J y (in_or_app _ _ _ (or_introl Iy))) _ _ _ _ _ G) as (K1 & L1 & D1); [rewrite n_addb; lia|].
      specialize (IH (fun y Iy => J y (in_or_app _ _ _ (or_intror Iy))) _ _ _ _ c G2).
      assert (K2 : WK c s s2) by (eapply wk_trans; [apply wk_add, wk_refl|exact K1|right; lia]).
      assert (D1' : g_next s <= ca) by (destruct D1 as [->|D1]; [lia|rewrite n_addb in D1; lia]).
      eapply wk_trans; [|exact IH|now left]. apply wk_end; [exact K2|right; exact D1'|exact I].
  Qed.
  Lemma wk_all st : wk_ok st.
  Proof.
    induction st using stmt_ind'; intros J brk cur s c' s' HH L.
    - cbn [gather] in HH. apply spair in HH as [<- <-]. split; [|split; auto].
      eapply wk_same; [apply wk_refl|reflexivity|intros; apply e_ins|intros; apply s_ins].
    - rewrite gather_block in HH. exact (wk_block l H J _ _ _ _ _ HH L).
    - rewrite gather_if in HH. destruct (gblock fuel brk l (g_next s) (addb (addb s))) as [[ia s3]|] eqn:G; [|discriminate]. cbn [obind] in HH.
      destruct (stateless fuel _ [] [g_next s]) as [fl|]; [|discriminate]. cbn [obind] in HH. apply spair in HH as [<- <-].
      destruct (wk_block l H J _ _ _ _ _ G) as (K1 & L1 & D1); [rewrite !n_addb; lia|].
      assert (K2 : WK cur s s3) by (eapply wk_trans; [apply wk_add, wk_add, wk_refl|exact K1|right; lia]).
      destruct K1 as (N1 & _). rewrite !n_addb in N1. assert (D1' : g_next s <= ia) by (destruct D1 as [->|D1]; [lia|rewrite !n_addb in D1; lia]).
      split; [|split; [unfold st_next; rewrite !n_end, n_addb; lia|right; lia]].
      apply wk_end; [|now left|exact I]. apply wk_end; [|right; lia|exact I]. apply wk_end; [now apply wk_add|right; lia|exact I].
    - rewrite gather_ifelse in HH. destruct (gblock fuel brk l1 (g_next s) (addb (addb s))) as [[ia s3]|] eqn:G; [|discriminate]. cbn [obind] in HH.
      destruct (gblock fuel brk l2 (S (g_next s)) s3) as [[ea s4]|] eqn:G2; [|discriminate]. cbn [obind] in HH.
      destruct (stateless fuel _ [] [g_next s]) as [fi|]; [|discriminate]. cbn [obind] in HH.
      destruct (stateless fuel _ [] [S (g_next s)]) as [fe|]; [|discriminate]. cbn [obind] in HH. apply spair in HH as [<- <-].
      destruct (wk_block l1 H (fun y Iy => J y (in_or_app _ _ _ (or_introl Iy))) _ _ _ _ _ G) as (K1 & L1 & D1); [rewrite !n_addb; lia|].
      assert (K2 : WK cur s s3) by (eapply wk_trans; [apply wk_add, wk_add, wk_refl|exact K1|right; lia]).
      destruct K1 as (N1 & _). rewrite !n_addb in N1. assert (D1' : g_next s <= ia) by (destruct D1 as [->|D1]; [lia|rewrite !n_addb in D1; lia]).
      destruct (wk_block l2 H0 (fun y Iy => J y (in_or_app _ _ _ (or_intror Iy))) _ _ _ _ _ G2) as (K3 & L3 & D3); [lia|].
      assert (K4 : WK cur s s4) by (eapply wk_trans; [exact K2|exact K3|right; lia]).
      destruct K3 as (N3 & _). assert (D3' : g_next s <= ea) by (destruct D3 as [->|D3]; lia).
      split; [|split; [unfold st_next; rewrite !n_end, n_addb; lia|right; lia]].
      apply wk_end; [|now left|exact I]. apply wk_end; [|right; lia|exact I]. apply wk_end; [now apply wk_add|right; lia|exact I].
    - rewrite gather_switch in HH. destruct (gcases fuel brk (g_next s) cs (addb s)) as [[bs s2]|] eqn:G; [|discriminate]. cbn [obind] in HH.
      destruct (gflags fuel _ bs) as [fl|]; [|discriminate]. cbn [obind] in HH. apply spair in HH as [<- <-].
      pose proof (wk_cases (g_next s) cs H J _ _ _ _ cur G) as K1.
      assert (K2 : WK cur s (st_end s2 cur (ESwitch e bs (g_next s)))).
      { apply wk_end; [|now left|exact I]. eapply wk_trans; [apply wk_add, wk_refl|exact K1|now left]. }
      assert (EA : b_end (g_blk (st_end s2 cur (ESwitch e bs (g_next s))) (g_next s)) = ENone).
      { rewrite e_end by lia. destruct K1 as (_ & _ & K1). rewrite K1 by (rewrite ?n_addb; lia). now rewrite b_addb_new. }
      destruct K2 as (A & B & C). split; [|split; [rewrite n_state; destruct K1 as (K1 & _); rewrite n_addb in K1; rewrite n_end; lia|right; lia]].
      split; [exact A|]. split.
      + intros W x. unfold end_ok. rewrite e_state. pose proof (B W x) as E. unfold end_ok in E.
        destruct (Nat.eq_dec x (g_next s)) as [->|N]; [rewrite EA; exact I|]. rewrite s_state by exact N. exact E.
      + intros x Lx N. rewrite e_state. auto.
    - rewrite gather_while in HH.
      destruct (gblock fuel (Some (S (S (g_next s)))) l (S (g_next s)) (addb (addb (st_next (addb s) cur (g_next s))))) as [[il s5]|] eqn:G; [|discriminate].
      cbn [obind] in HH. apply spair in HH as [<- <-].
      destruct (wk_block l H J _ _ _ _ _ G) as (K1 & L1 & D1); [unfold st_next; rewrite !n_addb, n_end, n_addb; lia|].
      assert (K0 : WK cur s (addb (addb (st_next (addb s) cur (g_next s))))).
      { apply wk_add, wk_add. apply wk_end; [apply wk_add, wk_refl|now left|exact I]. }
      assert (K2 : WK cur s s5) by (eapply wk_trans; [exact K0|exact K1|right; lia]).
      destruct K1 as (N1 & _). unfold st_next in N1. rewrite !n_addb, n_end, n_addb in N1.
      assert (D1' : g_next s <= il). { destruct D1 as [->|D1]; [lia|]. unfold st_next in D1. rewrite !n_addb, n_end, n_addb in D1. lia. }
      assert (K3 : WK cur s (st_next (st_last s5 (S (S (g_next s)))) il (g_next s))).
      { apply wk_end; [|right; lia|exact I]. eapply wk_same; [exact K2|reflexivity|reflexivity|reflexivity]. }
      split; [|split; [unfold st_next; rewrite n_state, !n_end, n_last; lia|right; lia]].
      destruct K3 as (A & B & C). split; [exact A|]. split.
      + intros W x. unfold end_ok. rewrite e_state. destruct (Nat.eq_dec x (g_next s)) as [->|N].
        * rewrite e_end_same. apply s_state_same.
        * rewrite e_end by exact N. rewrite s_state, s_end by exact N. apply (B W x).
      + intros x Lx N. rewrite e_state, e_end by lia. auto.
    - cbn [gather] in HH. destruct brk as [t|]; [|discriminate]. injection HH as <- <-.
      split; [|split; [cbn; lia|right; cbn; lia]]. apply (wk_add cur s (st_state (st_end s cur (ENext (Some t))) t true)). apply wk_state. apply wk_end; [apply wk_refl|now left|exact I].
    - rewrite gather_step in HH. apply spair in HH as [<- <-]. split; [|split; [cbn; lia|right; lia]].
      apply wk_end; [|now left|exact I]. eapply wk_same; [apply wk_state, wk_add, wk_refl|reflexivity|intros; apply e_nsk|intros; apply s_nsk].
    - cbn [gather] in HH. destruct (assoc n (g_lbl s)); [discriminate|]. apply spair in HH as [<- <-].
      split; [|split; [cbn; lia|right; cbn; lia]]. apply wk_end; [|now left|exact I]. eapply wk_same; [apply wk_add, wk_refl|reflexivity|reflexivity|reflexivity].
    - cbn [gather] in HH. destruct (assoc n (g_lbl s)) as [t|]; apply spair in HH as [<- <-]; (split; [|split; [cbn; lia|right; cbn; lia]]).
      + apply (wk_add cur s (st_state (st_end s cur (ENext (Some t))) t true)). apply wk_state. apply wk_end; [apply wk_refl|now left|exact I].
      + eapply wk_same; [apply (wk_add cur s (st_end s cur (ENext None))); apply wk_end; [apply wk_refl|now left|exact I]|reflexivity|reflexivity|reflexivity].
    - cbn [gather] in HH. apply spair in HH as [<- <-]. split; [|split; auto].
      eapply wk_same; [apply wk_refl|reflexivity|intros; apply e_ins|intros; apply s_ins].
    - rewrite gather_join in HH. apply spair in HH as [<- <-]. split; [|split; [cbn; lia|right; lia]].
      eapply (wk_same cur s (st_end _ _ _)); [|reflexivity|intros; apply e_ins|intros; apply s_ins].
      assert (K : WK cur s (st_state (addb (st_next (st_state (addb s) (g_next s) true) cur (g_next s))) (S (g_next s)) true)).
      { apply wk_state, wk_add. apply wk_end; [apply wk_state, wk_add, wk_refl|now left|exact I]. }
      destruct K as (A & B & C). split; [exact A|]. split.
      + intros W x. unfold end_ok. destruct (Nat.eq_dec x (g_next s)) as [->|N].
        * rewrite e_end_same. apply forallb_forall. intros y Iy. apply J. exact Iy.
        * rewrite e_end by exact N. apply (B W x).
      + intros x Lx N. rewrite e_end by lia. auto.
  Qed.

  Lemma ends_gather unit p s : (forall x, In x (jdones p) -> q x = true) -> gather_body fuel unit p = Some s -> forall b, end_ok q (g_blk s b).
  Proof.
    intros J H. unfold gather_body in H.
    match type of H with obind ?o _ = _ => destruct o as [[c s1]|] eqn:E; [|discriminate] end. cbn [obind] in H.
    assert (W0 : WS gst0).
    { intros b. unfold gst0, end_ok. cbn [g_blk]. unfold set_state, gset. destruct (Nat.eqb b 0); exact I. }
    assert (W1 : WS s1).
    { destruct unit.
      - destruct (wk_all (SBlock p) J _ _ _ _ _ E) as ((_ & K & _) & _); [cbn; lia|]. exact (K W0).
      - destruct (wk_list p (proj2 (Forall_forall _ _) (fun x _ => wk_all x)) J _ _ _ _ _ E) as ((_ & K & _) & _); [cbn; lia|]. exact (K W0). }
    destruct (resolve (g_lbl s1) (g_fwd s1) (g_blk s1)) as [g|] eqn:R; [|discriminate]. cbn [obind] in H. injection H as <-. cbn [upd_blk g_blk].
    assert (G : forall fwd g0 g', resolve (g_lbl s1) fwd g0 = Some g' -> (forall b, end_ok q (g0 b)) -> forall b, end_ok q (g' b)).
    { induction fwd as [|[n from] fwd IH]; intros g0 g' R0 W; cbn [resolve] in R0; [now injection R0 as <-|].
      destruct (assoc n (g_lbl s1)) as [t|]; [|discriminate]. eapply IH; [exact R0|]. intros b. unfold end_ok, set_state, set_end, gset.
      destruct (Nat.eqb b t) eqn:E1; cbn [b_end b_state].
      - destruct (Nat.eqb t from) eqn:E2; cbn [b_end b_state]; [exact I|]. pose proof (W t) as Wt. unfold end_ok in Wt. destruct (b_end (g0 t)); try exact Wt. reflexivity.
      - destruct (Nat.eqb b from) eqn:E2; cbn [b_end b_state]; [exact I|]. apply (W b). }
    eapply G; [exact R|exact W1].
  Qed.
  Lemma ends_prevent r unr bs : forall g ch g2 ch2, prevent r unr bs g ch = Some (g2, ch2) -> (forall b, end_ok q (g b)) -> forall b, end_ok q (g2 b).
  Proof.
    induction bs as [|x bs IH]; intros g ch g2 ch2 H W; cbn [prevent] in H; [now injection H as <- _|].
    destruct (unr x); [eapply IH; eassumption|]. destruct (b_end (g x)) as [| |e ib fi it eb fe et af| | | | |]; try (eapply IH; eassumption).
    destruct (b_state (g af)) eqn:S; [eapply IH; eassumption|]. destruct (_ || _); [discriminate|]. eapply IH; [exact H|].
    intros b. unfold end_ok, set_state, gset. destruct (Nat.eqb_spec b af) as [->|N]; cbn [b_end b_state]; [|apply (W b)].
    pose proof (W af) as Wa. unfold end_ok in Wa. destruct (b_end (g af)); try exact Wa. congruence.
  Qed.
  Lemma ends_generate s g r : generate_states fuel s = Some (g, r) -> (forall b, end_ok q (g_blk s b)) -> forall b, end_ok q (g b).
  Proof.
    intros H W. unfold generate_states in H. destruct (renumber fuel (g_blk s)) as [r1|]; [|discriminate]. cbn [obind] in H.
    destruct (prevent r1 (unreachable (g_blk s) r1) (seq 0 (g_next s)) (g_blk s) false) as [[g2 ch]|] eqn:P; [|discriminate]. cbn [obind] in H.
    assert (g = g2) as -> by (destruct ch; [destruct (renumber fuel g2); [|discriminate]; cbn [obind] in H|]; now injection H as <- _).
    eapply ends_prevent; eassumption.
  Qed.
End Loops.

(** The chains of the states of a program. *)
Definition program_chains (fuel : nat) (unit : bool) (deps0 : list var) (p : list stmt) : option (list (nat * list ch)) :=
  do s <- gather_body fuel unit p;
  do (g, r) <- generate_states fuel s;
  state_chains fuel g r (g_last s) deps0 [0] [].

Lemma program_chains_ok fuel unit deps0 p F : compile fuel unit deps0 p = Some F ->
  exists sts, program_chains fuel unit deps0 p = Some sts /\
    (forall u, map (fun st => (fst st, fst (anals tmp0 (snd st) (deps0, u)))) sts = f_arms F) /\
    (forall Q, (forall x, In x (jdones p) -> Q x = true) -> forallb (fun st => toks Q all_p (snd st)) sts = true).
Proof.
  unfold compile, program_chains. intros H. destruct (gather_body fuel unit p) as [s|] eqn:EG; [|discriminate]. cbn [obind] in *.
  destruct (generate_states fuel s) as [[g r]|] eqn:ES; [|discriminate]. cbn [obind] in *.
  destruct (write_states fuel g r (g_last s) deps0 [0] []) as [arms|] eqn:EW; [|discriminate]. cbn [obind] in H.
  destruct (r_sid r 0) as [e|]; [|discriminate]. cbn [obind] in H. injection H as <-. cbn [f_arms].
  destruct (states_chains _ _ _ _ _ _ _ _ EW) as (sts & A & B & C). exists sts. split; [exact A|]. split; [exact B|].
  intros Q J. apply C. eapply ends_generate; [exact ES|]. eapply ends_gather; [exact J|exact EG].
Qed.
