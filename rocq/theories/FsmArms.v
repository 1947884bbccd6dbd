(** The states written: every index selected has a state, and executing a state follows the graph. *)
From Coq Require Import List Bool Arith ZArith Lia.
Import ListNotations.
From Verif Require Import FsmModel FsmEmit FsmLayout FsmGather FsmBody FsmRenum FsmRegion FsmJoin FsmStates.

(** Indices written by a piece of code. *)
Fixpoint idxs (c : vst) : list nat :=
  match c with
  | VSet _ _ => []
  | VIdx n => [n]
  | VIf _ a b => flat_map idxs a ++ flat_map idxs b
  | VCase _ cs => flat_map (fun c => flat_map idxs (snd c)) cs
  end.
Definition idxss (l : list vst) : list nat := flat_map idxs l.

Section VstInd.
  Variable P : vst -> Prop.
  Hypothesis H1 : forall x e, P (VSet x e).
  Hypothesis H2 : forall n, P (VIdx n).
  Hypothesis H3 : forall e a b, Forall P a -> Forall P b -> P (VIf e a b).
  Hypothesis H4 : forall e cs, Forall (fun c => Forall P (snd c)) cs -> P (VCase e cs).
  Fixpoint vst_ind' (c : vst) : P c :=
    let li := (fix li (l : list vst) : Forall P l := match l with [] => Forall_nil _ | x :: r => Forall_cons _ (vst_ind' x) (li r) end) in
    match c with
    | VSet x e => H1 x e
    | VIdx n => H2 n
    | VIf e a b => H3 e a b (li a) (li b)
    | VCase e cs => H4 e cs ((fix cases (cs : list (option Z * list vst)) : Forall (fun c => Forall P (snd c)) cs :=
        match cs with [] => Forall_nil _ | c :: r => Forall_cons _ (li (snd c)) (cases r) end) cs)
    end.
End VstInd.

Lemma vexecs_idx_from Q l : Forall (fun c => forall s, snd (vexec Q c s) = snd s \/ In (snd (vexec Q c s)) (idxs c)) l ->
  forall s, snd (vexecs Q l s) = snd s \/ In (snd (vexecs Q l s)) (idxss l).
Proof.
  intros F. induction F as [|c l H F IH]; intros s; cbn [vexecs idxss flat_map]; [now left|].
  destruct (IH (vexec Q c s)) as [E|E]; [|right; apply in_or_app; now right]. destruct (H s) as [E2|E2]; [left; congruence|right; apply in_or_app; left; congruence].
Qed.
Lemma vexec_idx Q c : forall s, snd (vexec Q c s) = snd s \/ In (snd (vexec Q c s)) (idxs c).
Proof.
  induction c using vst_ind'; intros s.
  - now left.
  - right. now left.
  - rewrite vexec_if. cbn [idxs]. destruct (truth _).
    + destruct (vexecs_idx_from Q a H s) as [E|E]; [now left|right; apply in_or_app; now left].
    + destruct (vexecs_idx_from Q b H0 s) as [E|E]; [now left|right; apply in_or_app; now right].
  - rewrite vexec_case. cbn [idxs]. destruct (pick (veval Q (fst s) e) cs) as [l|] eqn:P; [|now left].
    apply pick_in in P. apply in_map_iff in P. destruct P as [[v l'] [E P]]. cbn in E. subst l'. rewrite Forall_forall in H. specialize (H _ P). cbn in H.
    destruct (vexecs_idx_from Q l H s) as [E|E]; [now left|]. right. apply in_flat_map. exists (v, l). split; [exact P|exact E].
Qed.
Lemma vexecs_idx Q l s : snd (vexecs Q l s) = snd s \/ In (snd (vexecs Q l s)) (idxss l).
Proof. apply vexecs_idx_from. apply Forall_forall. intros c _. apply vexec_idx. Qed.

(** Waits only wait for states, there are no calls. *)
Definition plain (G : graph) (x : nat) : Prop :=
  match b_end (G x) with EWait _ w n => b_state (G w) = true /\ b_state (G n) = true | ECall _ _ _ _ _ | ERet _ _ => False | _ => True end.

Section Plain.
  Variable G : graph.
  Variable Lb : nat -> nat -> Prop.
  Lemma plain_next b x : nexts G b x -> plain G b.
  Proof. unfold nexts, plain. intros ->. exact I. Qed.
  Lemma plain_ok :
    (forall brk st lo hi b i b' i', tr G Lb brk st lo hi b i b' i' -> b < lo -> forall x, own2 lo hi b b' x -> plain G x) /\
    (forall brk l lo hi b i b' i', trl G Lb brk l lo hi b i b' i' -> b < lo -> forall x, own2 lo hi b b' x -> plain G x) /\
    (forall brk l lo hi b i m, trb G Lb brk l lo hi b i m -> b < lo -> forall x, own2 lo hi b m x -> plain G x) /\
    (forall brk af cs bs lo hi, trcs G Lb brk af cs bs lo hi -> forall x, lo <= x < hi -> plain G x).
  Proof.
    destruct (tr_exit G Lb) as [X1 [X2 [X3 X4]]]. unfold own2.
    apply tr_mutind.
    - intros; lia.
    - intros; lia.
    - intros brk l lo hi b i m Tr IH. exact IH.
    - intros brk e l lo m b i ia Fb Eb F1 F2 Tr IH Fi Ni Fe Ne Nm Sm L x H. destruct (X3 _ _ _ _ _ _ _ Tr) as [Y1 Y2].
      destruct (Nat.eq_dec x b) as [ ->|N0]; [unfold plain; now rewrite Eb|]. destruct (Nat.eq_dec x ia) as [ ->|N1]; [now apply (plain_next _ m)|].
      destruct (Nat.eq_dec x (S lo)) as [ ->|N2]; [now apply (plain_next _ m)|]. apply IH; lia.
    - intros brk e l1 l2 lo m1 m b i ia ea Fb Eb F1 F2 T1 IH1 Fi Ni T2 IH2 Fe Ne Nm Sm L x H. destruct (X3 _ _ _ _ _ _ _ T1) as [Y1 Y2]. destruct (X3 _ _ _ _ _ _ _ T2) as [Y3 Y4].
      destruct (Nat.eq_dec x b) as [ ->|N0]; [unfold plain; now rewrite Eb|]. destruct (Nat.eq_dec x ia) as [ ->|N1]; [now apply (plain_next _ m)|].
      destruct (Nat.eq_dec x ea) as [ ->|N2]; [now apply (plain_next _ m)|].
      destruct (Nat.eq_dec x lo); [apply IH1; lia|]. destruct (Nat.eq_dec x (S lo)); [apply IH2; lia|]. destruct (le_lt_dec m1 x); [apply IH2; lia|apply IH1; lia].
    - intros brk e cs bs lo hi b i Fb Eb Tr IH Nm Sm L x H. destruct (Nat.eq_dec x b) as [ ->|N0]; [unfold plain; now rewrite Eb|]. apply IH. lia.
    - intros brk e l lo hi b i il Fb Nb Sl Kl Fl El F1 Kf Sa Tr IH Fi Ni L x H. destruct (X3 _ _ _ _ _ _ _ Tr) as [Y1 Y2].
      destruct (Nat.eq_dec x b) as [ ->|N0]; [now apply (plain_next _ lo)|]. destruct (Nat.eq_dec x il) as [ ->|N1]; [now apply (plain_next _ lo)|].
      destruct (Nat.eq_dec x lo) as [ ->|N2]; [unfold plain; now rewrite El|]. apply IH; lia.
    - intros t lo b i Fb Nb St F L x H. assert (x = b) by lia. subst. now apply (plain_next _ t).
    - intros brk lo b i Fb Nb St K L x H. assert (x = b) by lia. subst. now apply (plain_next _ lo).
    - intros brk n lo b i Fb Nb K Hl L x H. assert (x = b) by lia. subst. now apply (plain_next _ lo).
    - intros brk n lo b i Fb [Nb|[y [Nb _]]] F L x H; assert (x = b) by lia; subst; [unfold plain; now rewrite Nb|now apply (plain_next _ y)].
    - intros brk d rb lo b i rest Fb Nb Sl Kl Fl El Sn Kn Hi L x H. assert (O : x = b \/ x = lo) by lia. destruct O as [ ->| ->]; [now apply (plain_next _ lo)|].
      unfold plain. rewrite El. auto.
    - intros; lia.
    - intros brk x r0 lo m hi b i b1 i1 b2 i2 T1 IH1 T2 IH2 L y H.
      destruct (X1 _ _ _ _ _ _ _ _ T1) as [Y1 Y2]. destruct (X2 _ _ _ _ _ _ _ _ T2) as [Y3 Y4].
      assert (O : ((y = b \/ lo <= y < m) /\ y <> b1) \/ ((y = b1 \/ m <= y < hi) /\ y <> b2)) by lia. destruct O as [O|O]; [apply IH1|apply IH2]; try assumption; lia.
    - intros brk l lo m b i a j Fb Nb F1 Tr IH Fa Na F2 L x H. destruct (X2 _ _ _ _ _ _ _ _ Tr) as [Y1 Y2].
      destruct (Nat.eq_dec x b) as [ ->|N0]; [now apply (plain_next _ lo)|]. destruct (Nat.eq_dec x a) as [ ->|N1]; [now apply (plain_next _ m)|]. apply IH; lia.
    - intros; lia.
    - intros brk af v l cs bs lo m hi a F Tr IH Fa Na T2 IH2 x Hx. destruct (X3 _ _ _ _ _ _ _ Tr) as [Y1 Y2]. destruct (le_lt_dec m x); [apply IH2; lia|].
      destruct (Nat.eq_dec x a) as [ ->|N1]; [now apply (plain_next _ af)|]. apply IH; lia.
  Qed.
End Plain.

(** Indices written by [emit]. *)
Section Idx.
  Variable g : graph.
  Variable r : rst.
  Variable ffi : nat -> option nat.
  Hypothesis pl : forall x, plain g x.

  Definition from (q : list nat) (n : nat) : Prop := n = 0 \/ exists x, In x q /\ b_state (g x) = true /\ ffi x = Some n.
  Lemma from_l q q' n : from q n -> from (q ++ q') n.
  Proof. intros [H|[x [H1 H2]]]; [now left|right; exists x; split; [apply in_or_app; now left|exact H2]]. Qed.
  Lemma from_r q q' n : from q' n -> from (q ++ q') n.
  Proof. intros [H|[x [H1 H2]]]; [now left|right; exists x; split; [apply in_or_app; now right|exact H2]]. Qed.

  Lemma idxss_app a b n : In n (idxss (a ++ b)) <-> In n (idxss a) \/ In n (idxss b).
  Proof. unfold idxss. rewrite flat_map_app. apply in_app_iff. Qed.
  Lemma write_ins_idx l : forall deps c d, write_ins l deps = (c, d) -> forall n, In n (idxss c) -> n = 0.
  Proof.
    induction l as [|[x e|] l IH]; intros deps c d H n Hn; cbn in H.
    - injection H as <- <-. destruct Hn.
    - destruct (write_ins l (x :: deps)) as [c' d'] eqn:W. injection H as <- <-. eapply IH; [exact W|exact Hn].
    - destruct (write_ins l deps) as [c' d'] eqn:W. injection H as <- <-. destruct Hn as [Hn|Hn]; [now symmetry|]. eapply IH; [exact W|exact Hn].
  Qed.

  Definition idx_ok (f : nat) : Prop := forall entry stop b deps c d q, emit g r ffi f entry stop b deps = Some (c, d, q) -> forall n, In n (idxss c) -> from q n.

  Lemma goto_idx x deps c d q : goto_state ffi x deps = Some (c, d, q) -> b_state (g x) = true -> forall n, In n (idxss c) -> from q n.
  Proof.
    unfold goto_state, obind. destruct (ffi x) as [i|] eqn:E; [|discriminate]. intros [= <- <- <-] S n [ <-|[]]. right. exists x. split; [now left|auto].
  Qed.
  Lemma follow_idx f stop x deps c d q : idx_ok f -> follow g r ffi f stop x deps = Some (c, d, q) -> forall n, In n (idxss c) -> from q n.
  Proof.
    intros IH H n Hn. unfold follow in H. destruct (b_state (g x)) eqn:S; [eapply goto_idx; eassumption|].
    destruct (match stop with Some t => Nat.eqb x t | None => false end); [injection H as <- <- <-; destruct Hn|]. eapply IH; eassumption.
  Qed.

  Lemma emit_idx f : idx_ok f.
  Proof.
    induction f as [|f IH]; intros entry stop b deps c d q H n Hn; cbn [emit] in H; [discriminate|].
    destruct (entry && match stop with Some _ => true | None => false end && b_state (g b)) eqn:En.
    { apply andb_true_iff in En. destruct En as [_ En]. eapply goto_idx; eassumption. }
    destruct (write_ins (b_ins (g b)) deps) as [c1 d1] eqn:W. pose proof (write_ins_idx _ _ _ _ W) as W0.
    assert (Z : forall q n, In n (idxss c1) -> from q n) by (intros q0 m Hm; left; now apply W0).
    pose proof (pl b) as PL. unfold plain in PL.
    destruct (b_end (g b)) as [|[x|]|e ib fi it eb fe et af|e cs af|e it af|e w nx|cc sv cid go rt|cc rets]; try contradiction; try discriminate.
    - injection H as <- <- <-. apply idxss_app in Hn. destruct Hn as [Hn|[Hn|[]]]; [now apply Z|now left].
    - apply obind_some in H. destruct H as [[[c2 d2] q2] [H2 H]]. injection H as <- <- <-. apply idxss_app in Hn. destruct Hn as [Hn|Hn]; [now apply Z|].
      eapply follow_idx; [exact IH|exact H2|exact Hn].
    - apply obind_some in H. destruct H as [[[ci di] qi] [Hi H]].
      apply obind_some in H. destruct H as [[[ci' di'] qi'] [Hi' H]].
      apply obind_some in H. destruct H as [[[ce de] qe] [He H]].
      apply obind_some in H. destruct H as [[[ce' de'] qe'] [He' H]].
      assert (KI : forall m, In m (idxss ci') -> from qi' m).
      { destruct (dead r et && negb (dead r it) && negb (b_state (g af))).
        - apply obind_some in Hi'. destruct Hi' as [[[c3 d3] q3] [H3 E3]]. injection E3 as <- <- <-. intros m Hm. apply idxss_app in Hm.
          destruct Hm as [Hm|Hm]; [apply from_l; eapply IH; eassumption|apply from_r; eapply IH; eassumption].
        - injection Hi' as <- <- <-. intros m Hm. eapply IH; eassumption. }
      assert (KE : forall m, In m (idxss ce') -> from qe' m).
      { destruct (dead r it && negb (dead r et) && negb (b_state (g af))).
        - apply obind_some in He'. destruct He' as [[[c3 d3] q3] [H3 E3]]. injection E3 as <- <- <-. intros m Hm. apply idxss_app in Hm.
          destruct Hm as [Hm|Hm]; [apply from_l; eapply IH; eassumption|apply from_r; eapply IH; eassumption].
        - injection He' as <- <- <-. intros m Hm. eapply IH; eassumption. }
      assert (KC : forall q3 m, In m (idxss (c1 ++ [VIf (rewrite d1 e) ci' ce'])) -> from (qi' ++ qe' ++ q3) m).
      { intros q3 m Hm. apply idxss_app in Hm. destruct Hm as [Hm|Hm]; [now apply Z|]. unfold idxss in Hm. cbn [flat_map idxs] in Hm. rewrite app_nil_r in Hm. apply in_app_or in Hm.
        destruct Hm as [Hm|Hm]; [apply from_l; now apply KI|apply from_r; apply from_l; now apply KE]. }
      assert (KC' : forall m, In m (idxss (c1 ++ [VIf (rewrite d1 e) ci' ce'])) -> from (qi' ++ qe') m).
      { intros m Hm. specialize (KC [] m Hm). now rewrite app_nil_r in KC. }
      destruct (b_state (g af)); [injection H as <- <- <-; now apply KC'|].
      destruct ((dead r et && negb (dead r it)) || (dead r it && negb (dead r et))); [injection H as <- <- <-; now apply KC'|].
      apply obind_some in H. destruct H as [[[c4 d4] q4] [H4 H]]. injection H as <- <- <-. apply idxss_app in Hn. destruct Hn as [Hn|Hn]; [now apply KC|].
      apply from_r. apply from_r. destruct (match stop with Some t => Nat.eqb af t | None => false end); [injection H4 as <- <- <-; destruct Hn|eapply IH; [exact H4|exact Hn]].
    - apply obind_some in H. destruct H as [[[bs d2] q2] [H2 H]].
      assert (KB : forall m, In m (flat_map (fun c => flat_map idxs (snd c)) bs) -> from q2 m).
      { clear H Hn PL. revert bs d2 q2 H2. induction cs as [|[v cb] cs IHc]; intros bs d2 q2 H2 m Hm.
        - injection H2 as <- <- <-. destruct Hm.
        - apply obind_some in H2. destruct H2 as [[[ca da] qa] [Ha H2]]. apply obind_some in H2. destruct H2 as [[[bs' d'] q'] [Hb H2]].
          injection H2 as <- <- <-. cbn [flat_map snd] in Hm. apply in_app_or in Hm. destruct Hm as [Hm|Hm]; [apply from_l; eapply IH; eassumption|apply from_r; eapply IHc; eassumption]. }
      assert (KC : forall m, In m (idxss (c1 ++ [VCase (rewrite d1 e) bs])) -> from q2 m).
      { intros m Hm. apply idxss_app in Hm. destruct Hm as [Hm|Hm]; [now apply Z|]. unfold idxss in Hm. cbn [flat_map idxs] in Hm. rewrite app_nil_r in Hm. now apply KB. }
      destruct (b_state (g af)); [injection H as <- <- <-; now apply KC|].
      apply obind_some in H. destruct H as [[[c4 d4] q4] [H4 H]]. injection H as <- <- <-. apply idxss_app in Hn. destruct Hn as [Hn|Hn]; [apply from_l; now apply KC|].
      apply from_r. destruct (match stop with Some t => Nat.eqb af t | None => false end); [injection H4 as <- <- <-; destruct Hn|eapply IH; [exact H4|exact Hn]].
    - apply obind_some in H. destruct H as [[[ci di] qi] [Hi H]]. apply obind_some in H. destruct H as [[[ce de] qe] [He H]]. injection H as <- <- <-.
      apply idxss_app in Hn. destruct Hn as [Hn|Hn]; [now apply Z|]. unfold idxss in Hn. cbn [flat_map idxs] in Hn. rewrite app_nil_r in Hn. apply in_app_or in Hn.
      destruct Hn as [Hn|Hn]; [apply from_l; eapply IH; eassumption|apply from_r]. destruct (b_state (g af)) eqn:S; [eapply goto_idx; eassumption|eapply IH; eassumption].
    - apply obind_some in H. destruct H as [iw [Hw H]]. apply obind_some in H. destruct H as [i_n [Hx H]]. injection H as <- <- <-.
      apply idxss_app in Hn. destruct Hn as [Hn|Hn]; [now apply Z|]. destruct PL as [S1 S2]. cbn in Hn. destruct Hn as [ <-|[ <-|[]]].
      + right. exists nx. split; [now left|auto].
      + right. exists w. split; [right; now left|auto].
  Qed.
End Idx.

(** * All the states *)
Lemma ff_index_fuel g r last f f' x i : ff_index f g r last x = Some i -> f <= f' -> ff_index f' g r last x = Some i.
Proof.
  unfold ff_index, obind. destruct (fast_forward f g x) as [y|] eqn:E; [|discriminate]. intros H L. now rewrite (fast_forward_fuel g f f' x y E L).
Qed.

Lemma somes_map_in (ff : nat -> option nat) l l' x : somes (map ff l) = Some l' -> In x l -> exists y, ff x = Some y /\ In y l'.
Proof.
  revert l'. induction l as [|a l IH]; intros l' H Hx; [destruct Hx|]. cbn in H. destruct (ff a) as [y|] eqn:E; [|discriminate].
  destruct (somes (map ff l)) as [r|] eqn:S; [|discriminate]. injection H as <-. destruct Hx as [ ->|Hx]; [exists y; split; [exact E|now left]|].
  destruct (IH r eq_refl Hx) as [z [Z1 Z2]]. exists z. split; [exact Z1|now right].
Qed.

Section States.
  Variables (g : graph) (r : rst) (last : nat) (deps0 : list var).

  Lemma states_arms : forall f q pr arms, write_states f g r last deps0 q pr = Some arms ->
    exists done : list nat, NoDup done /\ (forall b, In b done -> ~ In b pr) /\ map (fun b => r_sid r b) done = map (fun a => Some (fst a)) arms /\
      (forall b, In b q -> In b pr \/ In b done) /\
      (forall id c, In (id, c) arms -> exists b f' d ps, f' <= f /\ r_sid r b = Some id /\ In b done /\ emit g r (ff_index f' g r last) f' true None b deps0 = Some (c, d, ps) /\
          forall x, In x ps -> b_state (g x) = true -> exists y, fast_forward f' g x = Some y /\ (In y pr \/ In y done)).
  Proof.
    induction f as [|f IH]; intros [|b q] pr arms H; cbn [write_states] in H; try discriminate.
    - injection H as <-. exists []. split; [constructor|]. split; [intros ? []|]. split; [reflexivity|]. split; [intros ? []|]. intros ? ? [].
    - injection H as <-. exists []. split; [constructor|]. split; [intros ? []|]. split; [reflexivity|]. split; [intros ? []|]. intros ? ? [].
    - destruct (r_sid r b) as [id|] eqn:S; [|discriminate]. destruct (memb b pr) eqn:M.
      + destruct (IH _ _ _ H) as [dn [A1 [A2 [A3 [A4 A5]]]]]. exists dn. split; [exact A1|]. split; [exact A2|]. split; [exact A3|]. split.
        * intros x [ <-|Hx]; [left; now apply memb_In|now apply A4].
        * intros id' c Hc. destruct (A5 id' c Hc) as [b' [f' [d [ps [B1 B2]]]]]. exists b', f', d, ps. split; [lia|exact B2].
      + apply memb_notIn in M.
        apply obind_some in H. destruct H as [[[c d] ps] [He H]]. apply obind_some in H. destruct H as [ps' [Hp H]]. apply obind_some in H. destruct H as [arms' [Ha H]].
        injection H as <-. destruct (IH _ _ _ Ha) as [dn [A1 [A2 [A3 [A4 A5]]]]]. exists (b :: dn).
        split; [constructor; [|exact A1]; intros X; apply (A2 b X); now left|].
        split; [intros x [ <-|Hx]; [exact M|intros X; apply (A2 x Hx); now right]|].
        split; [cbn; now rewrite S, A3|]. split.
        * intros x [ <-|Hx]; [right; now left|]. destruct (A4 x) as [[ <-|X]|X]; [apply in_or_app; now left|right; now left|now left|right; now right].
        * intros id' c' [[= <- <-]|Hc].
          -- exists b, f, d, ps. split; [lia|]. split; [exact S|]. split; [now left|]. split; [exact He|]. intros x Hx Sx.
             destruct (somes_map_in _ _ _ x Hp) as [y [Y1 Y2]]; [apply filter_In; auto|]. exists y. split; [exact Y1|].
             destruct (A4 y) as [[ <-|X]|X]; [apply in_or_app; now right|right; now left|now left|right; now right].
          -- destruct (A5 id' c' Hc) as [b' [f' [d' [ps2 [B1 [B2 [B3 [B4 B5]]]]]]]]. exists b', f', d', ps2. split; [lia|]. split; [exact B2|]. split; [now right|]. split; [exact B4|].
             intros x Hx Sx. destruct (B5 x Hx Sx) as [y [Y1 [[ <-|Y2]|Y2]]]; [exists b; split; [exact Y1|right; now left]|exists y; auto|exists y; split; [exact Y1|right; now right]].
  Qed.
End States.

Lemma arm_of_in k l c : arm_of k l = Some c -> In (k, c) l.
Proof. induction l as [|[a d] l IH]; cbn; [discriminate|]. destruct (Nat.eqb_spec a k); [intros [= ->]; subst; now left|right; auto]. Qed.
Lemma arm_of_some k l : In k (map fst l) -> exists c, arm_of k l = Some c.
Proof. induction l as [|[a d] l IH]; cbn; [intros []|]. destruct (Nat.eqb_spec a k); [eauto|]. intros [H|H]; [congruence|auto]. Qed.

(** The chain from the instructions to the states. *)
Record Chain (fuel : nat) (unit : bool) (deps0 : list var) (p : list stmt) (m : fsm) (s : gst) (g : graph) (r : rst) : Prop := {
  h_body : gather_body fuel unit p = Some s;
  h_gen : generate_states fuel s = Some (g, r);
  h_arms : write_states fuel g r (g_last s) deps0 [0] [] = Some (f_arms m);
  h_entry : r_sid r 0 = Some (f_entry m);
  h_max : f_max m = r_max r
}.
Lemma compile_chain fuel unit deps0 p m : compile fuel unit deps0 p = Some m -> exists s g r, Chain fuel unit deps0 p m s g r.
Proof.
  unfold compile. intros H. apply obind_some in H. destruct H as [s [H1 H]]. apply obind_some in H. destruct H as [[g r] [H2 H]].
  apply obind_some in H. destruct H as [arms [H3 H]]. apply obind_some in H. destruct H as [e [H4 H]]. injection H as <-. exists s, g, r. constructor; cbn; auto.
Qed.

Definition has_arm (m : fsm) (i : nat) : Prop := exists c, arm_of i (f_arms m) = Some c.
(** Index selected when jumping to a state. *)
Definition Jmp (fuel : nat) (g : graph) (r : rst) (last : nat) (x i : nat) : Prop := ff_index fuel g r last x = Some i.

Section Cycle.
  Variables (fuel : nat) (unit : bool) (deps0 : list var) (p : list stmt) (m : fsm) (s : gst) (g : graph) (r : rst).
  Hypothesis CH : Chain fuel unit deps0 p m s g r.
  Hypothesis NJ : nojumps (gotoss p) p = true.
  Hypothesis CV : covereds p = true.

  Lemma all_plain c ic : Good fuel (body unit p) s g r c ic -> forall x, plain g x.
  Proof.
    intros O x. destruct (plain_ok g (LbOf s)) as [_ [P _]]. destruct (Nat.eq_dec x c) as [ ->|N]; [unfold plain; now rewrite (o_end _ _ _ _ _ _ _ O)|].
    destruct (le_lt_dec (g_next s) x) as [L|L]; [unfold plain; now rewrite (o_out _ _ _ _ _ _ _ O x L)|].
    apply (P _ _ _ _ _ _ _ _ (o_tr _ _ _ _ _ _ _ O)); [lia|]. unfold own2. lia.
  Qed.

  Lemma arm_sound c ic Q D i code : Good fuel (body unit p) s g r c ic -> agree Q D deps0 -> In (i, code) (f_arms m) ->
    exists b, r_sid r b = Some i /\ walk g (Jmp fuel g r (g_last s)) Q b (D, i) (vexecs Q code (D, i)).
  Proof.
    intros O A Hc. destruct (states_arms g r (g_last s) deps0 _ _ _ _ (h_arms _ _ _ _ _ _ _ _ CH)) as [dn [A1 [A2 [A3 [A4 A5]]]]].
    destruct (A5 i code Hc) as [b [f' [d [ps [B1 [B2 [B3 [B4 _]]]]]]]]. exists b. split; [exact B2|].
    pose proof (o_ren _ _ _ _ _ _ _ O) as REN. pose proof (o_unres _ _ _ _ _ _ _ O) as UN.
    assert (VB : In b (r_vis r)) by (now apply (n_sid _ _ _ REN b i)).
    set (J := Jmp fuel g r (g_last s)).
    assert (ffJ : forall x j, ff_index f' g r (g_last s) x = Some j -> J x j) by (intros x j H; eapply ff_index_fuel; [exact H|exact B1]).
    assert (Vc : forall b c, In b (r_vis r) -> In (Some c) (children (b_end (g b))) -> b_state (g c) = false -> In c (r_vis r)).
    { intros b0 c0 V0 H0 S0. destruct (n_child _ _ _ REN b0 (Some c0) V0 H0) as [c' [[= <-] [y [Y1 Y2]]]]. unfold tgt in Y1. rewrite S0 in Y1. injection Y1 as <-. exact Y2. }
    destruct (region_ok g (LbOf s) UN) as [_ [RO _]]. destruct (RO _ _ _ _ _ _ _ _ (o_tr _ _ _ _ _ _ _ O) ltac:(lia)) as [R HR].
    assert (OW : forall x, own2 1 (g_next s) 0 c x \/ b_end (g x) = ENone).
    { intros x. destruct (Nat.eq_dec x c) as [ ->|N]; [right; exact (o_end _ _ _ _ _ _ _ O)|].
      destruct (le_lt_dec (g_next s) x) as [L|L]; [right; exact (o_out _ _ _ _ _ _ _ O x L)|left; unfold own2; lia]. }
    destruct (emit_sound g r J (ff_index f' g r (g_last s)) ffJ (fun x => In x (r_vis r)) Vc R) with (f := f') (entry := true) (stop := @None nat) (b := b) (deps := deps0) (c := code) (d := d) (q := ps)
      as [_ K].
    - intros x y Hy. destruct (OW x) as [Ox|Ex]; [now apply (g_start _ _ _ _ _ _ HR)|rewrite Ex in Hy; destruct Hy].
    - intros x a Ha. destruct (OW x) as [Ox|Ex]; [now apply (g_after _ _ _ _ _ _ HR)|rewrite Ex in Ha; discriminate].
    - intros x a y z Ha. destruct (OW x) as [Ox|Ex]; [now apply (g_closed _ _ _ _ _ _ HR)|rewrite Ex in Ha; discriminate].
    - intros x a y a' Ha. destruct (OW x) as [Ox|Ex]; [now apply (g_nest _ _ _ _ _ _ HR x a)|rewrite Ex in Ha; discriminate].
    - intros x Vx. destruct (OW x) as [Ox|Ex]; [|unfold join_ok; now rewrite Ex].
      destruct (joins_ok g (LbOf s) UN (gotoss (body unit p)) (o_lbl _ _ _ _ _ _ _ O) r J (fun x => In x (r_vis r)) Vc (n_dead _ _ _ REN) (o_prev _ _ _ _ _ _ _ O)) as [_ [JO _]].
      apply (JO _ _ _ _ _ _ _ _ (o_tr _ _ _ _ _ _ _ O)); [lia| |rewrite body_covered; exact CV|exact Ox|exact Vx].
      rewrite body_nojump. rewrite <- NJ. clear.
      assert (E : forall n, memb n (gotoss (body unit p)) = memb n (gotoss p)).
      { intros n. destruct (memb n (gotoss p)) eqn:M; [apply memb_In; apply body_gotos; now apply memb_In|].
        apply memb_notIn. rewrite body_gotos. now apply memb_notIn. }
      apply (nojumps_ext _ _ E).
    - exact B4.
    - exact VB.
    - exact I.
    - now right.
    - destruct (K Q D i A) as [o [Ro [Oo|[Oo _]]]]; subst o.
      + destruct (run_none_walk g J Q b (D, i) _ Ro) as [s' [[= <-] Wk]]. exact Wk.
      + destruct (run_none_walk g J Q b (D, i) _ Ro) as [s' [X _]]. discriminate.
  Qed.

  (** Every index selected is 0 or has a state. *)
  Lemma arm_closed c ic i code n : Good fuel (body unit p) s g r c ic -> In (i, code) (f_arms m) -> In n (idxss code) -> n = 0 \/ has_arm m n.
  Proof.
    intros O Hc Hn. destruct (states_arms g r (g_last s) deps0 _ _ _ _ (h_arms _ _ _ _ _ _ _ _ CH)) as [dn [A1 [A2 [A3 [A4 A5]]]]].
    destruct (A5 i code Hc) as [b [f' [d [ps [B1 [B2 [B3 [B4 B5]]]]]]]].
    destruct (emit_idx g r _ (all_plain c ic O) f' _ _ _ _ _ _ _ B4 n Hn) as [H|[x [X1 [X2 X3]]]]; [now left|].
    destruct (B5 x X1 X2) as [y [Y1 [[]|Y2]]]. unfold ff_index, obind in X3. rewrite Y1 in X3.
    destruct (block_empty (g y) && Nat.eqb y (g_last s)); [left; congruence|right].
    apply arm_of_some. assert (H : In (Some n) (map (fun a => Some (fst a)) (f_arms m))).
    { rewrite <- A3. apply in_map_iff. now exists y. }
    apply in_map_iff in H. destruct H as [a [E H]]. injection E as <-. now apply in_map.
  Qed.

  Lemma entry_arm : has_arm m (f_entry m).
  Proof.
    destruct (states_arms g r (g_last s) deps0 _ _ _ _ (h_arms _ _ _ _ _ _ _ _ CH)) as [dn [A1 [A2 [A3 [A4 A5]]]]].
    apply arm_of_some. destruct (A4 0) as [[]|H]; [now left|]. assert (X : In (Some (f_entry m)) (map (fun a => Some (fst a)) (f_arms m))).
    { rewrite <- A3. apply in_map_iff. exists 0. split; [exact (h_entry _ _ _ _ _ _ _ _ CH)|exact H]. }
    apply in_map_iff in X. destruct X as [a [E X]]. injection E as <-. now apply in_map.
  Qed.

  (** One cycle. *)
  Theorem cycle_walk c ic Q D i : Good fuel (body unit p) s g r c ic -> agree Q D deps0 -> has_arm m i -> i <> 0 ->
    exists b D' i', r_sid r b = Some i /\ cycle m Q D i = Some (D', i') /\ walk g (Jmp fuel g r (g_last s)) Q b (D, i) (D', i') /\ (i' = 0 \/ has_arm m i').
  Proof.
    intros O A [code Hc] Ni. pose proof (arm_of_in _ _ _ Hc) as Hi.
    destruct (arm_sound c ic Q D i code O A Hi) as [b [B1 B2]].
    destruct (vexecs Q code (D, i)) as [D' i'] eqn:E. exists b, D', i'. split; [exact B1|]. split.
    - unfold cycle. destruct (Nat.eqb_spec i 0); [contradiction|]. unfold obind. now rewrite Hc, E.
    - split; [exact B2|]. destruct (vexecs_idx Q code (D, i)) as [X|X]; rewrite E in X; cbn in X.
      + subst i'. right. now exists code.
      + eapply arm_closed; [exact O|exact Hi|exact X].
  Qed.
End Cycle.
